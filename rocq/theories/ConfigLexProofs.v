(** * The scanner of configuration files and its regular expressions *)

From Verif Require Import Base BaseFacts Stdio ParseTableSpec ParseTableProofs Filter Spoof ConfigLex ConfigSpec.

Local Open Scope nat_scope.

(** ** Regular expressions *)

Lemma matches_class p s : matches (Class p) s <-> exists c, s = [c] /\ p c.
Proof.
  split.
  - intros H. inversion H; subst. eauto.
  - intros (c & -> & H). now constructor.
Qed.

Lemma matches_letters k s : matches (Letters k) s <-> same_text s k.
Proof. split; [intros H; now inversion H|now constructor]. Qed.

Lemma matches_seq a b s : matches (Seq a b) s <-> exists x y, s = x ++ y /\ matches a x /\ matches b y.
Proof.
  split.
  - intros H. inversion H; subst. eauto.
  - intros (x & y & -> & A & B). now constructor.
Qed.

Lemma matches_star p s : matches (Star (Class p)) s <-> Forall p s.
Proof.
  split.
  - intros H. remember (Star (Class p)) as r eqn:E. induction H; try discriminate; inversion E; subst.
    + constructor.
    + apply matches_class in H. destruct H as (c & -> & H). simpl. constructor; auto.
  - induction 1 as [|c s C F IH]; [constructor|].
    change (c :: s) with ([c] ++ s). constructor; [now constructor|auto].
Qed.

Lemma matches_char_seq p b s : matches (Seq (Class p) b) s <-> exists c y, s = c :: y /\ p c /\ matches b y.
Proof.
  rewrite matches_seq. split.
  - intros (x & y & -> & A & B). apply matches_class in A. destruct A as (c & -> & A). exists c, y. auto.
  - intros (c & y & -> & A & B). exists [c], y. split; [easy|]. split; [now constructor|easy].
Qed.

Lemma matches_plus p s : matches (Plus (Class p)) s <-> s <> [] /\ Forall p s.
Proof.
  unfold Plus. rewrite matches_char_seq. split.
  - intros (c & y & -> & A & B). apply matches_star in B. split; [easy|]. now constructor.
  - intros [N F]. destruct s as [|c y]; [easy|]. inversion F; subst. exists c, y. rewrite matches_star. auto.
Qed.

(** ** Character classes *)

Lemma letter_iff c : letter c <-> is_letter c = true.
Proof.
  unfold letter. split.
  - intros H. revert c H. apply Forall_forall. vm_compute. repeat constructor.
  - destruct c; vm_compute; intros H; try discriminate; tauto.
Qed.

Lemma decimal_iff c : decimal c <-> is_digit c = true.
Proof.
  unfold decimal. split.
  - intros H. revert c H. apply Forall_forall. vm_compute. repeat constructor.
  - destruct c; vm_compute; intros H; try discriminate; tauto.
Qed.

Lemma wordchar_iff c : wordchar c <-> is_word c = true.
Proof.
  unfold wordchar, is_word. rewrite letter_iff, decimal_iff, !orb_true_iff, beq_eq. tauto.
Qed.

Lemma blank_iff c : (c = x09 \/ c = x20) <-> is_blank c = true.
Proof. unfold is_blank. now rewrite orb_true_iff, !beq_eq. Qed.

(** ** Runs *)

Lemma run_spec p s : exists a b, s = a ++ b /\ run p s = length a /\ Forall (fun c => p c = true) a /\
  match b with [] => True | c :: _ => p c = false end.
Proof.
  unfold run. induction s as [|c s IH]; simpl.
  - exists [], []. auto.
  - destruct (p c) eqn:P; simpl.
    + destruct IH as (a & b & -> & R & F & B). destruct (scan_until _ _) as [w r]. simpl in *.
      exists (c :: a), b. simpl. splits; auto.
    + exists [], (c :: s). simpl. auto.
Qed.

Lemma run_max p s x y : s = x ++ y -> Forall (fun c => p c = true) x -> length x <= run p s.
Proof.
  intros E F. destruct (run_spec p s) as (a & b & E' & -> & A & B).
  rewrite E in E'. clear E s A. revert a E'. induction F as [|c x C F IH]; intros a E; simpl; [lia|].
  destruct a as [|d a]; simpl in *.
  - destruct b; [discriminate|]. injection E as -> E. congruence.
  - injection E as -> E. apply IH in E. lia.
Qed.

Lemma run_exact p a b : Forall (fun c => p c = true) a -> match b with [] => True | c :: _ => p c = false end ->
  run p (a ++ b) = length a.
Proof.
  intros F B. unfold run. rewrite (scan_until_spec _ a b); [easy| |].
  - eapply Forall_impl; [|exact F]. intros c H. simpl. now rewrite H.
  - destruct b; auto. now rewrite B.
Qed.

Lemma app_firstn {A} (a b : list A) : firstn (length a) (a ++ b) = a.
Proof. rewrite firstn_app, firstn_all, Nat.sub_diag. simpl. now rewrite app_nil_r. Qed.

Lemma app_skipn {A} (a b : list A) : skipn (length a) (a ++ b) = b.
Proof. rewrite skipn_app, skipn_all, Nat.sub_diag. reflexivity. Qed.

Lemma Forall_iff {A} (p q : A -> Prop) l : (forall x, p x <-> q x) -> Forall p l <-> Forall q l.
Proof. intros H. rewrite !Forall_forall. split; intros F x I; apply H; auto. Qed.

(** ** The rules one by one *)

Definition rule_regex (r : rule) : regex :=
  match r with
  | R_blank => Plus (Class (fun c => c = x09 \/ c = x20))
  | R_comment => Seq (Char "#"%byte) (Star (Class (fun c => c <> newline)))
  | R_newline => Char newline
  | R_key k => Letters (keyword_text k)
  | R_open => Char "{"%byte
  | R_close => Char "}"%byte
  | R_qstring => Seq (Char quote) (Seq (Star (Class (fun c => c <> quote /\ c <> newline)))
                           (Class (fun c => c = quote \/ c = newline)))
  | R_id => Seq (Class letter) (Star (Class wordchar))
  | R_number => Plus (Class decimal)
  | R_eol => Char ";"%byte
  end.

Lemma flex_rules_are : flex_rules = map (fun r => (rule_regex r, r)) rules.
Proof. reflexivity. Qed.

Lemma in_flex re r : In (re, r) flex_rules -> re = rule_regex r /\ In r rules.
Proof.
  rewrite flex_rules_are, in_map_iff. intros (x & E & I). injection E as <- <-. auto.
Qed.

Lemma flex_in r : In r rules -> In (rule_regex r, r) flex_rules.
Proof. intros H. rewrite flex_rules_are. apply in_map_iff. eauto. Qed.

(** The prefix found is a match and no match is longer. *)
Definition rule_ok (r : rule) (input : str) : Prop :=
  match match_rule r input with
  | Some n => exists s rest, input = s ++ rest /\ n = length s /\ matches (rule_regex r) s /\
      forall s' rest', input = s' ++ rest' -> matches (rule_regex r) s' -> length s' <= n
  | None => forall s' rest', input = s' ++ rest' -> ~ matches (rule_regex r) s'
  end.

Lemma one_char_ok c0 r input :
  (match_rule r input = match input with [] => None | c :: _ => if beq c c0 then Some 1 else None end) ->
  rule_regex r = Char c0 -> rule_ok r input.
Proof.
  unfold rule_ok. intros -> ->. destruct input as [|c rest].
  - intros s' rest' E M. apply matches_class in M. destruct M as (x & -> & _). discriminate.
  - destruct (beq c c0) eqn:B.
    + apply beq_eq in B. subst c. exists [c0], rest. splits; [easy|easy|now constructor|].
      intros s' rest' E M. apply matches_class in M. destruct M as (x & -> & _). simpl. lia.
    + intros s' rest' E M. apply matches_class in M. destruct M as (x & -> & ->). injection E as -> E.
      now rewrite beq_refl in B.
Qed.

Lemma plus_ok p q r input : (forall c, q c <-> p c = true) ->
  (match_rule r input = match run p input with O => None | n => Some n end) ->
  rule_regex r = Plus (Class q) -> rule_ok r input.
Proof.
  unfold rule_ok. intros Q -> ->. destruct (run_spec p input) as (a & b & E & R & F & B).
  assert (M : forall s' rest', input = s' ++ rest' -> matches (Plus (Class q)) s' -> s' <> [] /\ length s' <= run p input).
  { intros s' rest' E' M. apply matches_plus in M. destruct M as [N M]. split; [easy|].
    eapply run_max; [exact E'|]. eapply Forall_iff; [|exact M]. intros c. now rewrite Q. }
  destruct (run p input) as [|n].
  - intros s' rest' E' H. destruct (M _ _ E' H) as [N L]. destruct s'; [easy|simpl in L; lia].
  - exists a, b. splits; auto.
    + apply matches_plus. split; [now destruct a|]. eapply Forall_iff; [|exact F]. intros c. apply Q.
    + intros s' rest' E' H. now destruct (M _ _ E' H).
Qed.

Lemma same_text_length a b : same_text a b -> length a = length b.
Proof. unfold same_text. induction 1; simpl; auto. Qed.

Lemma char_star_ok p0 (q0 : byte -> Prop) p q r input : (forall c, q c <-> p c = true) -> (forall c, q0 c <-> p0 c = true) ->
  match_rule r input = match input with [] => None | c :: rest => if p0 c then Some (S (run p rest)) else None end ->
  rule_regex r = Seq (Class q0) (Star (Class q)) -> rule_ok r input.
Proof.
  unfold rule_ok. intros Q Q0 -> ->. destruct input as [|c rest].
  - intros s' rest' E M. apply matches_char_seq in M. destruct M as (x & y & -> & _). discriminate.
  - destruct (p0 c) eqn:P.
    + destruct (run_spec p rest) as (a & b & E & R & F & B). exists (c :: a), b. rewrite R. splits.
      * simpl. now f_equal.
      * reflexivity.
      * apply matches_char_seq. exists c, a. splits; auto; [now apply Q0|]. apply matches_star.
        eapply Forall_iff; [|exact F]. intros x. apply Q.
      * intros s' rest' E' M. apply matches_char_seq in M. destruct M as (x & y & -> & X & M).
        apply matches_star in M. simpl. apply le_n_S. rewrite <- R. cbn [app] in E'. injection E' as -> E'.
        eapply run_max; [exact E'|]. eapply Forall_iff; [|exact M]. intros z. now rewrite Q.
    + intros s' rest' E' M. apply matches_char_seq in M. destruct M as (x & y & -> & X & M).
      injection E' as -> E'. apply Q0 in X. congruence.
Qed.

Lemma nonquote_iff c : (c <> quote /\ c <> newline) <-> negb (beq c quote) && negb (beq c newline) = true.
Proof. rewrite andb_true_iff, !negb_true_iff, !beq_neq. tauto. Qed.

Lemma qstring_ok input : rule_ok R_qstring input.
Proof.
  unfold rule_ok. set (p := fun c => negb (beq c quote) && negb (beq c newline)).
  assert (D : forall s', matches (rule_regex R_qstring) s' -> exists x d, s' = quote :: x ++ [d] /\
              Forall (fun c => c <> quote /\ c <> newline) x /\ (d = quote \/ d = newline)).
  { intros s' M. cbn [rule_regex] in M. apply matches_char_seq in M. destruct M as (c & y & -> & -> & M).
    apply matches_seq in M. destruct M as (x & z & -> & X & Z). apply matches_star in X. apply matches_class in Z.
    destruct Z as (d & -> & Z). eauto. }
  assert (DX : forall rest x d rest', rest = (x ++ [d]) ++ rest' -> Forall (fun c => c <> quote /\ c <> newline) x ->
               (d = quote \/ d = newline) -> run p rest = length x).
  { intros rest x d rest' E X Z. rewrite E, <- app_assoc. apply run_exact.
    - eapply Forall_iff; [|exact X]. intros c. symmetry. apply nonquote_iff.
    - simpl. unfold p. destruct Z; subst d; reflexivity. }
  destruct input as [|c rest].
  - intros s' rest' E M. apply D in M. destruct M as (x & d & -> & _). discriminate.
  - cbn [match_rule]. destruct (beq c quote) eqn:B.
    + apply beq_eq in B. subst c. fold p. destruct (run_spec p rest) as (a & b & E & R & F & S).
      destruct (Nat.ltb_spec (run p rest) (length rest)) as [L|L].
      * destruct b as [|d b]; [rewrite app_nil_r in E; subst a; lia|].
        exists (quote :: a ++ [d]), b. splits.
        -- simpl. rewrite <- app_assoc. simpl. now f_equal.
        -- simpl. rewrite app_length. simpl. lia.
        -- cbn [rule_regex]. apply matches_char_seq. exists quote, (a ++ [d]). splits; auto.
           apply matches_seq. exists a, [d]. splits; auto.
           ++ apply matches_star. eapply Forall_iff; [|exact F]. intros x. apply nonquote_iff.
           ++ constructor. unfold p in S. destruct (beq d quote) eqn:Q; [left; now apply beq_eq|].
              destruct (beq d newline) eqn:Q'; [right; now apply beq_eq|discriminate].
        -- intros s' rest' E' M. apply D in M. destruct M as (x & d' & -> & X & Z). injection E' as E'.
           rewrite (DX _ _ _ _ E' X Z). simpl. rewrite app_length. simpl. lia.
      * intros s' rest' E' M. apply D in M. destruct M as (x & d' & -> & X & Z). injection E' as E'.
        rewrite (DX _ _ _ _ E' X Z) in L. rewrite E', !app_length in L. simpl in L. lia.
    + intros s' rest' E' M. apply D in M. destruct M as (x & d' & -> & X & Z). injection E' as -> E'.
      now rewrite beq_refl in B.
Qed.

Lemma match_rule_ok r input : rule_ok r input.
Proof.
  destruct r.
  - eapply plus_ok; [intros c; apply blank_iff| |]; reflexivity.
  - eapply (char_star_ok (fun c => beq c "#"%byte) _ (fun c => negb (beq c newline))); [| | |reflexivity].
    + intros c. now rewrite negb_true_iff, beq_neq.
    + intros c. now rewrite beq_eq.
    + now destruct input.
  - apply (one_char_ok newline); reflexivity.
  - unfold rule_ok. cbn [match_rule rule_regex].
    destruct (strncaseeq _ input _) eqn:E.
    + apply strncaseeq_prefix in E. destruct E as (p & q & -> & S). exists p, q. pose proof (same_text_length _ _ S) as L.
      splits; auto; [now constructor|]. intros s' rest' _ M. apply matches_letters in M.
      apply same_text_length in M. lia.
    + intros s' rest' -> M. apply matches_letters in M. apply Bool.not_true_iff_false in E. apply E.
      apply strncaseeq_prefix. exists s', rest'. auto.
  - apply (one_char_ok "{"%byte); reflexivity.
  - apply (one_char_ok "}"%byte); reflexivity.
  - apply qstring_ok.
  - eapply (char_star_ok is_letter letter is_word wordchar); [| | |reflexivity].
    + intros c. apply wordchar_iff.
    + intros c. apply letter_iff.
    + now destruct input.
  - eapply plus_ok; [intros c; apply decimal_iff| |]; reflexivity.
  - apply (one_char_ok ";"%byte); reflexivity.
Qed.

Lemma regex_nonempty r : ~ matches (rule_regex r) [].
Proof.
  intros M. destruct r; cbn [rule_regex] in M; unfold Plus, Char in M.
  all: try (apply matches_char_seq in M; destruct M as (x & y & E & _); discriminate).
  all: try (apply matches_class in M; destruct M as (x & E & _); discriminate).
  apply matches_letters in M. destruct k; inversion M.
Qed.

(** ** The best match *)

Lemma best_match_spec rs input : forall best,
  match best_match rs input best with
  | None => best = None /\ forall r, In r rs -> match_rule r input = None
  | Some (r, n) =>
    (best = Some (r, n) /\ forall r' m, In r' rs -> match_rule r' input = Some m -> m <= n) \/
    (exists before after, rs = before ++ r :: after /\ match_rule r input = Some n /\
       (forall r' m, In r' before -> match_rule r' input = Some m -> m < n) /\
       (forall r' m, In r' after -> match_rule r' input = Some m -> m <= n) /\
       (forall r' m, best = Some (r', m) -> m < n))
  end.
Proof.
  induction rs as [|r0 rs IH]; intros best; cbn [best_match].
  - destruct best as [[r n]|]; [|split; [easy|intros r []]]. left. split; [easy|]. intros r' m [].
  - set (best' := match match_rule r0 input with Some n => _ | None => best end). specialize (IH best').
    destruct (best_match rs input best') as [[r n]|].
    + destruct IH as [[E A]|(before & after & E & M & B & A & L)].
      * unfold best' in E. destruct (match_rule r0 input) as [k|] eqn:M0.
        -- destruct best as [[r1 m1]|].
           ++ destruct (Nat.ltb_spec m1 k).
              ** injection E as -> ->. right. exists [], rs. splits; auto; [intros r' m []|].
                 intros r' m X. injection X as -> ->. easy.
              ** injection E as -> ->. left. split; [easy|]. intros r' m [->|I] X; [congruence|eauto].
           ++ injection E as -> ->. right. exists [], rs. splits; auto; [intros r' m []|discriminate].
        -- left. split; [easy|]. intros r' m [->|I] X; [congruence|eauto].
      * right. exists (r0 :: before), after. splits; auto; [now rewrite E| |].
        -- intros r' m [->|I] X; [|eauto]. unfold best' in L. rewrite X in L.
           destruct best as [[r1 m1]|]; [|eauto]. destruct (Nat.ltb_spec m1 m); [eauto|].
           specialize (L _ _ eq_refl). lia.
        -- intros r' m ->. unfold best' in L. destruct (match_rule r0 input) as [k|]; [|eauto].
           destruct (Nat.ltb_spec m k); [|eauto]. specialize (L _ _ eq_refl). lia.
    + destruct IH as [E A]. unfold best' in E. destruct (match_rule r0 input) eqn:M0.
      * destruct best as [[r1 m1]|]; [|discriminate]. destruct (m1 <? n); discriminate.
      * split; [easy|]. intros r [->|I]; auto.
Qed.

Lemma best_munch input : match best_match rules input None with
  | Some (r, n) => exists s rest, n = length s /\ munch input s rest r
  | None => stray input
  end.
Proof.
  pose proof (best_match_spec rules input None) as H. destruct (best_match rules input None) as [[r n]|].
  - destruct H as [[E _]|(before & after & E & M & B & A & _)]; [discriminate|].
    pose proof (match_rule_ok r input) as R. unfold rule_ok in R. rewrite M in R.
    destruct R as (s & rest & -> & -> & MS & MX). exists s, rest. split; [easy|]. unfold munch. splits; auto.
    + intros ->. now apply regex_nonempty in MS.
    + exists (map (fun r => (rule_regex r, r)) before), (rule_regex r), (map (fun r => (rule_regex r, r)) after).
      splits; [|easy|].
      * rewrite flex_rules_are, E, map_app. reflexivity.
      * intros re' r' I M'. apply in_map_iff in I. destruct I as (x & X & I). injection X as <- <-.
        pose proof (match_rule_ok x (s ++ rest)) as R. unfold rule_ok in R.
        destruct (match_rule x (s ++ rest)) as [m|] eqn:MM.
        -- destruct R as (s1 & rest1 & _ & _ & _ & L). specialize (L s rest eq_refl M'). specialize (B _ _ I MM). lia.
        -- now apply (R s rest).
    + intros s' rest' re' r' E' I M'. apply in_flex in I. destruct I as [-> I].
      pose proof (match_rule_ok r' (s ++ rest)) as R. unfold rule_ok in R.
      destruct (match_rule r' (s ++ rest)) as [m|] eqn:MM.
      * destruct R as (s1 & rest1 & _ & _ & _ & L). specialize (L s' rest' E' M'). rewrite E in I.
        apply in_app_iff in I. destruct I as [I|[<-|I]].
        -- specialize (B _ _ I MM). lia.
        -- rewrite M in MM. injection MM as <-. easy.
        -- specialize (A _ _ I MM). lia.
      * exfalso. now apply (R s' rest').
  - destruct H as [_ A]. intros s' rest' re' r' E I _ M. apply in_flex in I. destruct I as [-> I].
    pose proof (match_rule_ok r' input) as R. unfold rule_ok in R. rewrite A in R by easy. now apply (R s' rest').
Qed.

(** A munch is unique. *)
Lemma first_unique {A} (P : A -> Prop) (l1 : list A) : forall x l2 l1' x' l2',
  l1 ++ x :: l2 = l1' ++ x' :: l2' -> P x -> P x' -> (forall y, In y l1 -> ~ P y) -> (forall y, In y l1' -> ~ P y) -> x = x'.
Proof.
  induction l1 as [|a l1 IH]; intros x l2 l1' x' l2' E X X' F F'; destruct l1' as [|a' l1']; simpl in E; inversion E; subst.
  - reflexivity.
  - exfalso. apply (F' a'); simpl; auto.
  - exfalso. apply (F x'); simpl; auto.
  - eapply IH; eauto; intros y I; [apply F|apply F']; simpl; auto.
Qed.

Lemma munch_unique input s rest r s' rest' r' : munch input s rest r -> munch input s' rest' r' ->
  s = s' /\ rest = rest' /\ r = r'.
Proof.
  intros (E & N & (b & re & a & F & M & B) & L) (E' & N' & (b' & re' & a' & F' & M' & B') & L').
  assert (I : In (re, r) flex_rules) by (rewrite F, in_app_iff; simpl; auto).
  assert (I' : In (re', r') flex_rules) by (rewrite F', in_app_iff; simpl; auto).
  pose proof (L _ _ _ _ E' I' M') as X. pose proof (L' _ _ _ _ E I M) as Y.
  assert (S : s = s').
  { transitivity (firstn (length s) input); [now rewrite E, app_firstn|].
    replace (length s) with (length s') by lia. now rewrite E', app_firstn. }
  subst s'. split; [easy|]. split.
  - rewrite E in E'. now apply app_inv_head in E'.
  - rewrite F in F'. eapply (first_unique (fun x => matches (fst x) s)) in F'; eauto.
    + congruence.
    + intros [re1 r1]. simpl. eauto.
    + intros [re1 r1]. simpl. eauto.
Qed.

Lemma munch_not_stray input s rest r : munch input s rest r -> stray input -> False.
Proof.
  intros (E & N & (b & re & a & F & M & B) & L) S. apply (S s rest re r); auto.
  rewrite F, in_app_iff. simpl. auto.
Qed.

Lemma munch_best input s rest r : munch input s rest r -> best_match rules input None = Some (r, length s).
Proof.
  intros M. pose proof (best_munch input) as B. destruct (best_match rules input None) as [[r' n]|].
  - destruct B as (s' & rest' & -> & B). destruct (munch_unique _ _ _ _ _ _ _ M B) as (-> & _ & ->). reflexivity.
  - exfalso. now apply (munch_not_stray _ _ _ _ M).
Qed.

Lemma stray_best input : stray input -> best_match rules input None = None.
Proof.
  intros S. pose proof (best_munch input) as B. destruct (best_match rules input None) as [[r' n]|]; [|easy].
  destruct B as (s' & rest' & -> & B). exfalso. now apply (munch_not_stray _ _ _ _ B).
Qed.

(** ** Actions *)

Lemma atoi_digits s v : digits 10 s v -> atoi s = to_int (Z.of_N v).
Proof.
  intros (ds & F & L & ->). unfold atoi.
  pose proof (scan_digits_spec 10 s ds ltac:(lia) F L 0%N [] I) as H. rewrite app_nil_r in H. now rewrite H.
Qed.

Lemma decimal_digits s : Forall decimal s -> exists v, digits 10 s v.
Proof.
  intros F. cut (exists ds, Forall2 digit s ds /\ Forall (fun d => d < 10)%N ds).
  - intros (ds & A & B). exists (positional 10 ds), ds. auto.
  - induction F as [|c s C F IH]; [exists []; auto|]. destruct IH as (ds & A & B).
    assert (D : exists d, digit c d /\ (d < 10)%N).
    { unfold decimal in C. simpl in C. unfold digit.
      repeat (destruct C as [<-|C]); try easy.
      - exists 0%N; split; [left; reflexivity|lia].
      - exists 1%N; split; [left; reflexivity|lia].
      - exists 2%N; split; [left; reflexivity|lia].
      - exists 3%N; split; [left; reflexivity|lia].
      - exists 4%N; split; [left; reflexivity|lia].
      - exists 5%N; split; [left; reflexivity|lia].
      - exists 6%N; split; [left; reflexivity|lia].
      - exists 7%N; split; [left; reflexivity|lia].
      - exists 8%N; split; [left; reflexivity|lia].
      - exists 9%N; split; [left; reflexivity|lia]. }
    destruct D as (d & D & L). exists (d :: ds). auto.
Qed.

Lemma lex_qstring_spec x d : nonul x -> d = quote \/ d = newline ->
  lex_qstring (quote :: x ++ [d]) =
  Ok (if beq d quote then Lexed [] (Some (T_qstring x)) else Lexed unterminated (Some (T_qstring (x ++ [d])))).
Proof.
  intros N D. unfold lex_qstring. cbn [tl].
  assert (C : cstr (x ++ [d]) = x ++ [d]).
  { apply cstr_nonul. unfold nonul. rewrite in_app_iff. intros [I|[I|[]]]; [easy|]. subst d. now destruct D. }
  rewrite C. replace (length (quote :: x ++ [d]) - 2) with (length x) by (simpl; rewrite app_length; simpl; lia).
  rewrite app_length, nth_middle, app_firstn. simpl length.
  destruct (Nat.ltb_spec (length x + 1) (length x)); [lia|]. now destruct (beq d quote).
Qed.

Lemma emits_action r s printed t : emits r s printed t -> lex_action r s = Ok (Lexed printed t).
Proof.
  destruct 1; cbn [lex_action]; try reflexivity.
  - apply as_int_iff in H0. now rewrite (atoi_digits _ _ H), H0.
  - rewrite lex_qstring_spec; auto.
  - rewrite lex_qstring_spec; auto.
Qed.

Lemma action_emits r s : matches (rule_regex r) s -> nonul s -> exists printed t, emits r s printed t.
Proof.
  intros M N. destruct r; cbn [rule_regex] in M; try (eexists; eexists; constructor; fail).
  - apply matches_char_seq in M. destruct M as (c & y & -> & -> & M). apply matches_seq in M.
    destruct M as (x & z & -> & X & Z). apply matches_class in Z. destruct Z as (d & -> & Z).
    assert (nonul x) by (intros I; apply N; simpl; rewrite in_app_iff; auto).
    destruct Z; subst d; eexists; eexists; [now apply emits_qstring|now apply emits_unterminated].
  - apply matches_plus in M. destruct M as [_ M]. destruct (decimal_digits _ M) as (v & V).
    eexists; eexists. refine (emits_number _ _ _ V _). now apply as_int_iff.
Qed.

Lemma lex_round_munch input s rest r printed t :
  munch input s rest r -> emits r s printed t -> lex_round input = Ok (Lexed printed t, rest).
Proof.
  intros M E. unfold lex_round. rewrite (munch_best _ _ _ _ M). destruct M as (-> & _).
  rewrite app_firstn, app_skipn, (emits_action _ _ _ _ E). reflexivity.
Qed.

Lemma lex_round_stray c rest : stray (c :: rest) -> lex_round (c :: rest) = Ok (Lexed [] None, rest).
Proof. intros S. unfold lex_round. now rewrite (stray_best _ S). Qed.

(** ** Scanning *)

Lemma scans_unique input ts printed : scans input ts printed ->
  forall ts' printed', scans input ts' printed' -> ts' = ts /\ printed' = printed.
Proof.
  induction 1 as [|input s rest r pr ts more M E S IH|input s rest r pr t ts more M E S IH|c rest ts more X S IH];
    intros ts' printed' H'.
  - inversion H'; subst; auto; destruct H as (X & Y & _); (destruct s; [elim (Y eq_refl)|discriminate X]).
  - pose proof (lex_round_munch _ _ _ _ _ _ M E) as L.
    inversion H' as [|i' s' rest' r' pr' ts2 more' M' E' S'|i' s' rest' r' pr' t' ts2 more' M' E' S'|c' rest' ts2 more' X' S']; subst.
    + destruct M as (X & Y & _). destruct s; [elim (Y eq_refl)|discriminate X].
    + rewrite (lex_round_munch _ _ _ _ _ _ M' E') in L. injection L as -> ->. apply IH in S'. destruct S'; now subst.
    + rewrite (lex_round_munch _ _ _ _ _ _ M' E') in L. discriminate.
    + exfalso. now apply (munch_not_stray _ _ _ _ M).
  - pose proof (lex_round_munch _ _ _ _ _ _ M E) as L.
    inversion H' as [|i' s' rest' r' pr' ts2 more' M' E' S'|i' s' rest' r' pr' t' ts2 more' M' E' S'|c' rest' ts2 more' X' S']; subst.
    + destruct M as (X & Y & _). destruct s; [elim (Y eq_refl)|discriminate X].
    + rewrite (lex_round_munch _ _ _ _ _ _ M' E') in L. discriminate.
    + rewrite (lex_round_munch _ _ _ _ _ _ M' E') in L. injection L as -> -> ->. apply IH in S'. destruct S'; now subst.
    + exfalso. now apply (munch_not_stray _ _ _ _ M).
  - inversion H' as [|i' s' rest' r' pr' ts2 more' M' E' S'|i' s' rest' r' pr' t' ts2 more' M' E' S'|c' rest' ts2 more' X' S']; subst; auto.
    + exfalso. now apply (munch_not_stray _ _ _ _ M').
    + exfalso. now apply (munch_not_stray _ _ _ _ M').
Qed.

Lemma scans_exist input : nonul input -> exists ts printed, scans input ts printed.
Proof.
  remember (length input) as n eqn:L. revert input L. induction n as [n IH] using lt_wf_ind. intros input L N.
  destruct input as [|c rest]; [exists [], []; constructor|].
  pose proof (best_munch (c :: rest)) as B. destruct (best_match rules (c :: rest) None) as [[r k]|].
  - destruct B as (s & rest' & _ & M). pose proof M as (E & NE & (b & re & a & F & MS & _) & _).
    assert (R : re = rule_regex r).
    { apply in_flex with (re := re) (r := r). rewrite F, in_app_iff. simpl. auto. }
    subst re. assert (NS : nonul s) by (intros I; apply N; rewrite E, in_app_iff; auto).
    assert (NR : nonul rest') by (intros I; apply N; rewrite E, in_app_iff; auto).
    destruct (action_emits r s MS NS) as (pr & t & A).
    destruct (IH (length rest')) with (input := rest') as (ts & more & S); auto.
    { subst n. rewrite E, app_length. destruct s; [easy|simpl; lia]. }
    destruct t as [t|]; [exists (t :: ts), (pr ++ more)|exists ts, (pr ++ more)].
    + eapply scans_token; eauto.
    + eapply scans_skip; eauto.
  - destruct (IH (length rest)) with (input := rest) as (ts & more & S); auto.
    { subst n. simpl. lia. }
    { intros I. apply N. simpl. auto. }
    exists ts, more. now constructor.
Qed.
