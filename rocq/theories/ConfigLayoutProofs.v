(** * Free layout scans as the tokens laid out *)

From Verif Require Import Base BaseFacts Stdio ParseTableSpec ParseTableProofs Filter Spoof ConfigLex ConfigSpec ConfigLexProofs.

Local Open Scope nat_scope.

(** Which rules a first character leaves. *)
Definition first_class (r : rule) (c : byte) : bool :=
  match r with
  | R_blank => is_blank c
  | R_comment => beq c "#"
  | R_newline => beq c newline
  | R_key k => beq (to_lower c) (hd NUL (keyword_text k))
  | R_open => beq c "{"
  | R_close => beq c "}"
  | R_qstring => beq c quote
  | R_id => is_letter c
  | R_number => is_digit c
  | R_eol => beq c ";"
  end.

Lemma first_class_ok r c x : matches (rule_regex r) (c :: x) -> first_class r c = true.
Proof.
  intros M. destruct r; cbn [rule_regex first_class] in *; unfold Char in M.
  - apply matches_plus in M. destruct M as [_ M]. inversion M; subst. now apply blank_iff.
  - apply matches_char_seq in M. destruct M as (d & y & E & -> & M). injection E as -> ->. reflexivity.
  - apply matches_class in M. destruct M as (d & E & ->). injection E as -> ->. reflexivity.
  - apply matches_letters in M. destruct k; inversion M as [|a b l l' S F]; subst; apply beq_eq; apply same_letter_iff in S; rewrite S; reflexivity.
  - apply matches_class in M. destruct M as (d & E & ->). injection E as -> ->. reflexivity.
  - apply matches_class in M. destruct M as (d & E & ->). injection E as -> ->. reflexivity.
  - apply matches_char_seq in M. destruct M as (d & y & E & -> & M). injection E as -> ->. reflexivity.
  - apply matches_char_seq in M. destruct M as (d & y & E & L & M). injection E as -> ->. now apply letter_iff.
  - apply matches_plus in M. destruct M as [_ M]. inversion M; subst. now apply decimal_iff.
  - apply matches_class in M. destruct M as (d & E & ->). injection E as -> ->. reflexivity.
Qed.

(** The head of a matching prefix is the head of the input. *)
Lemma prefix_class r s rest c input : c :: input = s ++ rest -> matches (rule_regex r) s -> first_class r c = true.
Proof.
  intros E M. destruct s as [|d s]; [now apply regex_nonempty in M|].
  injection E as -> _. now apply first_class_ok in M.
Qed.

Lemma munch_intro c s rest r before after :
  rules = before ++ r :: after -> matches (rule_regex r) (c :: s) ->
  (forall r', In r' before -> first_class r' c = true -> ~ matches (rule_regex r') (c :: s)) ->
  (forall r' s' rest', In r' rules -> first_class r' c = true -> matches (rule_regex r') s' ->
     c :: s ++ rest = s' ++ rest' -> length s' <= length (c :: s)) ->
  munch (c :: s ++ rest) (c :: s) rest r.
Proof.
  intros E M B L. unfold munch. splits; auto.
  - discriminate.
  - exists (map (fun r => (rule_regex r, r)) before), (rule_regex r), (map (fun r => (rule_regex r, r)) after).
    splits; auto.
    + rewrite flex_rules_are, E, map_app. reflexivity.
    + intros re' r' I M'. apply in_map_iff in I. destruct I as (x & X & I). injection X as <- <-.
      apply (B x I); [|exact M']. now apply first_class_ok in M'.
  - intros s' rest' re' r' E' I M'. apply in_flex in I. destruct I as [-> I].
    eapply L; eauto. eapply prefix_class; eauto.
Qed.

Lemma stray_intro c rest : (forall r, In r rules -> first_class r c = false) -> stray (c :: rest).
Proof.
  intros H s' rest' re' r' E I _ M. apply in_flex in I. destruct I as [-> I].
  pose proof (prefix_class _ _ _ _ _ E M) as C. now rewrite H in C.
Qed.

Lemma prefix_length (P : byte -> Prop) s : forall rest s' rest', s ++ rest = s' ++ rest' ->
  Forall P s' -> match rest with [] => True | c :: _ => ~ P c end -> length s' <= length s.
Proof.
  induction s as [|c s IH]; intros rest s' rest' E F R; simpl in *.
  - destruct s' as [|d s']; [easy|]. subst rest. inversion F; subst. now elim R.
  - destruct s' as [|d s']; simpl; [lia|]. injection E as -> E. inversion F; subst. apply IH in E; auto. lia.
Qed.

Lemma run_cons p c s : p c = true -> run p (c :: s) = S (run p s).
Proof. intros H. unfold run. simpl. rewrite H. simpl. now destruct (scan_until _ s). Qed.

(** ** Words *)

Lemma same_text_lower s k : same_text s k <-> map to_lower s = map to_lower k.
Proof.
  unfold same_text. split.
  - induction 1 as [|a b s k H F IH]; [easy|]. simpl. f_equal; [now apply same_letter_iff|exact IH].
  - revert k. induction s as [|a s IH]; intros [|b k] E; try discriminate; [constructor|].
    simpl in E. injection E as E1 E2. constructor; [now apply same_letter_iff|auto].
Qed.

Lemma keyword_injective k k' : map to_lower (keyword_text k) = map to_lower (keyword_text k') -> k = k'.
Proof. destruct k, k'; intros H; try reflexivity; exfalso; revert H; vm_compute; discriminate. Qed.

Lemma same_letter_word a b : same_letter a b -> is_word b = true -> is_word a = true.
Proof.
  intros H W. apply same_letter_iff in H.
  assert (L : forall c, is_word (to_lower c) = is_word c).
  { intros c. destruct c; reflexivity. }
  rewrite <- L, H, L. exact W.
Qed.

Lemma keyword_word k s : same_text s (keyword_text k) -> identifier s.
Proof.
  intros H.
  assert (K : Forall (fun c => is_word c = true) (keyword_text k)) by (destruct k; repeat constructor).
  assert (W : Forall wordchar s).
  { unfold same_text in H. induction H as [|a b s t E F IH]; [constructor|]. inversion K; subst.
    constructor; [apply wordchar_iff; eapply same_letter_word; eauto|auto]. }
  destruct s as [|c r]; [destruct k; inversion H|]. exists c, r. inversion W; subst. splits; auto.
  apply letter_iff.
  assert (F : exists d, same_letter c d /\ is_letter d = true).
  { destruct k; inversion H; subst; eexists; split; eauto. }
  destruct F as (d & E & L). apply same_letter_iff in E.
  assert (LL : forall c, is_letter (to_lower c) = is_letter c).
  { intros x. destruct x; reflexivity. }
  now rewrite <- LL, E, LL.
Qed.

(** Rules that a letter leaves. *)
Lemma letter_rules r c : is_letter c = true -> first_class r c = true -> r = R_id \/ exists k, r = R_key k.
Proof.
  intros L F. destruct r; eauto; exfalso; destruct c; cbv in L; try discriminate; cbv in F; discriminate.
Qed.

Lemma letter_match_word r s : r = R_id \/ (exists k, r = R_key k) -> matches (rule_regex r) s -> Forall wordchar s.
Proof.
  intros [->|[k ->]] M; cbn [rule_regex] in M.
  - apply matches_char_seq in M. destruct M as (c & y & -> & L & M). apply matches_star in M. constructor; [now left|easy].
  - apply matches_letters in M. apply keyword_word in M. destruct M as (c & r & -> & L & F). constructor; [now left|easy].
Qed.

Definition word_rule (t : token) : rule := match t with T_key k => R_key k | _ => R_id end.

Lemma key_position k : exists before after, rules = before ++ R_key k :: after /\
  forall r, In r before -> r <> R_id /\ r <> R_key k.
Proof.
  destruct k.
  - exists (firstn 3 rules), (skipn 4 rules). split; [reflexivity|]. simpl. intros r I. repeat (destruct I as [<-|I]); try easy.
  - exists (firstn 4 rules), (skipn 5 rules). split; [reflexivity|]. simpl. intros r I. repeat (destruct I as [<-|I]); try easy.
  - exists (firstn 5 rules), (skipn 6 rules). split; [reflexivity|]. simpl. intros r I. repeat (destruct I as [<-|I]); try easy.
  - exists (firstn 6 rules), (skipn 7 rules). split; [reflexivity|]. simpl. intros r I. repeat (destruct I as [<-|I]); try easy.
  - exists (firstn 7 rules), (skipn 8 rules). split; [reflexivity|]. simpl. intros r I. repeat (destruct I as [<-|I]); try easy.
  - exists (firstn 8 rules), (skipn 9 rules). split; [reflexivity|]. simpl. intros r I. repeat (destruct I as [<-|I]); try easy.
  - exists (firstn 9 rules), (skipn 10 rules). split; [reflexivity|]. simpl. intros r I. repeat (destruct I as [<-|I]); try easy.
  - exists (firstn 10 rules), (skipn 11 rules). split; [reflexivity|]. simpl. intros r I. repeat (destruct I as [<-|I]); try easy.
  - exists (firstn 11 rules), (skipn 12 rules). split; [reflexivity|]. simpl. intros r I. repeat (destruct I as [<-|I]); try easy.
  - exists (firstn 12 rules), (skipn 13 rules). split; [reflexivity|]. simpl. intros r I. repeat (destruct I as [<-|I]); try easy.
  - exists (firstn 13 rules), (skipn 14 rules). split; [reflexivity|]. simpl. intros r I. repeat (destruct I as [<-|I]); try easy.
  - exists (firstn 14 rules), (skipn 15 rules). split; [reflexivity|]. simpl. intros r I. repeat (destruct I as [<-|I]); try easy.
  - exists (firstn 15 rules), (skipn 16 rules). split; [reflexivity|]. simpl. intros r I. repeat (destruct I as [<-|I]); try easy.
Qed.

Definition no_word (text : str) : Prop := forall c r, text = c :: r -> ~ wordchar c.

Lemma word_longest c s text r' s' rest' : letter c -> Forall wordchar s -> no_word text ->
  first_class r' c = true -> matches (rule_regex r') s' -> c :: s ++ text = s' ++ rest' -> length s' <= length (c :: s).
Proof.
  intros L W N F M E. apply letter_iff in L. pose proof (letter_rules _ _ L F) as R.
  pose proof (letter_match_word _ _ R M) as WM.
  eapply (prefix_length wordchar (c :: s) text s' rest'); auto. destruct text; auto. eapply N. reflexivity.
Qed.

Lemma munch_key k s text : same_text s (keyword_text k) -> no_word text -> munch (s ++ text) s text (R_key k).
Proof.
  intros S N. pose proof (keyword_word _ _ S) as (c & x & -> & L & W).
  destruct (key_position k) as (before & after & E & B).
  eapply munch_intro; eauto.
  - now constructor.
  - intros r' I F M. apply letter_iff in L. destruct (B _ I) as [B1 B2].
    destruct (letter_rules _ _ L F) as [->|[k' ->]]; [easy|]. apply B2. f_equal.
    apply matches_letters in M. apply keyword_injective.
    apply same_text_lower in M. apply same_text_lower in S. congruence.
  - intros r' s' rest' _ F M E'. eapply word_longest; eauto.
Qed.

Lemma munch_id s text : identifier s -> (forall k, ~ same_text s (keyword_text k)) -> no_word text ->
  munch (s ++ text) s text R_id.
Proof.
  intros (c & x & -> & L & W) K N.
  eapply (munch_intro _ _ _ _ (firstn 19 rules) (skipn 20 rules)); [reflexivity| | |].
  - cbn [rule_regex]. apply matches_char_seq. exists c, x. splits; auto. now apply matches_star.
  - intros r' I F M. apply letter_iff in L. destruct (letter_rules _ _ L F) as [->|[k' ->]].
    + simpl in I. repeat (destruct I as [I|I]; [discriminate|]). easy.
    + apply matches_letters in M. now apply K in M.
  - intros r' s' rest' _ F M E'. eapply word_longest; eauto.
Qed.

Lemma digit_rules r c : is_digit c = true -> first_class r c = true -> r = R_number.
Proof.
  intros L F. destruct r; try reflexivity; exfalso; try destruct k; destruct c; cbv in L; try discriminate; cbv in F; discriminate.
Qed.

Lemma digits_decimal s v : digits 10 s v -> Forall decimal s.
Proof.
  intros (ds & F & L & _). induction F as [|c d s ds D F IH]; constructor; inversion L; subst; auto.
  assert (C : (d = 0 \/ d = 1 \/ d = 2 \/ d = 3 \/ d = 4 \/ d = 5 \/ d = 6 \/ d = 7 \/ d = 8 \/ d = 9)%N) by lia.
  unfold decimal. unfold digit in D. simpl.
  repeat (destruct C as [->|C]; [destruct D as [D|D]; cbv in D; injection D as <-; tauto|]).
  subst d. destruct D as [D|D]; cbv in D; injection D as <-; tauto.
Qed.

Lemma munch_number s text : s <> [] -> Forall decimal s -> no_word text -> munch (s ++ text) s text R_number.
Proof.
  intros NE D N. destruct s as [|c x]; [easy|]. inversion D as [|c' x' C X]; subst. apply decimal_iff in C.
  eapply (munch_intro _ _ _ _ (firstn 20 rules) (skipn 21 rules)); [reflexivity| | |].
  - cbn [rule_regex]. apply matches_plus. auto.
  - intros r' I F M. rewrite (digit_rules _ _ C F) in I. simpl in I. repeat (destruct I as [I|I]; [discriminate|]). easy.
  - intros r' s' rest' _ F M E'. rewrite (digit_rules _ _ C F) in M. cbn [rule_regex] in M. apply matches_plus in M.
    eapply (prefix_length decimal (c :: x) text); [exact E'|apply M|]. destruct text; auto.
    intros Y. apply (N _ _ eq_refl). unfold wordchar. auto.
Qed.

Lemma quote_rules r : first_class r quote = true -> r = R_qstring.
Proof. intros F. destruct r; try reflexivity; exfalso; try destruct k; cbv in F; discriminate. Qed.

Lemma munch_qstring s text : ~ In quote s -> ~ In newline s ->
  munch ((quote :: s ++ [quote]) ++ text) (quote :: s ++ [quote]) text R_qstring.
Proof.
  intros Q N.
  assert (F : Forall (fun c => c <> quote /\ c <> newline) s).
  { apply Forall_forall. intros c I. split; intros ->; easy. }
  eapply (munch_intro _ _ _ _ (firstn 18 rules) (skipn 19 rules)); [reflexivity| | |].
  - cbn [rule_regex]. apply matches_char_seq. exists quote, (s ++ [quote]). splits; auto. apply matches_seq.
    exists s, [quote]. splits; auto; [now apply matches_star|]. constructor. auto.
  - intros r' I FC M. rewrite (quote_rules _ FC) in I. simpl in I. repeat (destruct I as [I|I]; [discriminate|]). easy.
  - intros r' s' rest' _ FC M E. rewrite (quote_rules _ FC) in M. cbn [rule_regex] in M.
    apply matches_char_seq in M. destruct M as (c & y & -> & -> & M). apply matches_seq in M.
    destruct M as (x & z & -> & X & Z). apply matches_star in X. apply matches_class in Z. destruct Z as (d & -> & Z).
    cbn [length app] in *. injection E as E. rewrite <- !app_assoc in E. rewrite !app_length. simpl.
    assert (length x <= length s); [|lia].
    eapply (prefix_length _ s); [exact E|exact X|]. simpl. intros [H _]. now apply H.
Qed.

(** ** Punctuation, white space, comments *)

Lemma best_gives c rest r : best_match rules (c :: rest) None = Some (r, 1) -> munch (c :: rest) [c] rest r.
Proof.
  intros H. pose proof (best_munch (c :: rest)) as B. rewrite H in B.
  destruct B as (s & rest' & L & M). pose proof M as (E & _). destruct s as [|d [|? ?]]; [discriminate L| |discriminate L].
  injection E as <- <-. exact M.
Qed.

Lemma scan_punctuation c r t rest ts more : best_match rules (c :: rest) None = Some (r, 1) ->
  emits r [c] [] (Some t) -> scans rest ts more -> scans (c :: rest) (t :: ts) more.
Proof.
  intros B E S. change more with ([] ++ more). eapply scans_token; eauto. now apply best_gives.
Qed.

Lemma scan_newline rest ts more : scans rest ts more -> scans (newline :: rest) ts more.
Proof.
  intros S. change more with ([] ++ more). eapply scans_skip; [apply (best_gives _ _ R_newline); vm_compute; reflexivity|constructor|exact S].
Qed.

Lemma best_cons r rs input n : match_rule r input = Some n ->
  best_match (r :: rs) input None = best_match rs input (Some (r, n)).
Proof. intros H. cbn [best_match]. now rewrite H. Qed.

Lemma blank_best c rest : is_blank c = true -> best_match rules (c :: rest) None = Some (R_blank, S (run is_blank rest)).
Proof.
  intros B. change rules with (R_blank :: tl rules). rewrite (best_cons _ _ _ (S (run is_blank rest))).
  - generalize (S (run is_blank rest)). intros n. apply blank_iff in B. destruct B; subst c; vm_compute; reflexivity.
  - cbn [match_rule]. now rewrite run_cons.
Qed.

Lemma munch_blank c rest : is_blank c = true ->
  exists s rest', munch (c :: rest) (c :: s) rest' R_blank /\ rest = s ++ rest' /\ length s = run is_blank rest.
Proof.
  intros B. pose proof (best_munch (c :: rest)) as M. rewrite (blank_best _ _ B) in M.
  destruct M as (s & rest' & L & M). pose proof M as (E & _). destruct s as [|d s]; [discriminate L|].
  injection E as <- E. exists s, rest'. split; [exact M|]. split; [exact E|]. now injection L.
Qed.

Lemma scan_blank c rest ts more : c = x09 \/ c = x20 -> scans rest ts more -> scans (c :: rest) ts more.
Proof.
  intros B S. apply blank_iff in B. destruct (munch_blank c rest B) as (s & rest' & M & E & L).
  change more with ([] ++ more). eapply scans_skip; [exact M|constructor|].
  destruct s as [|d s]; [simpl in E; now subst|].
  (* the next character is blank as well: the same run *)
  assert (D : is_blank d = true).
  { destruct (run_spec is_blank rest) as (a & b & E' & L' & F & _). rewrite L' in L.
    destruct a as [|d' a]; [discriminate|]. rewrite E in E'. injection E' as <- _. now inversion F. }
  rewrite E in S. cbn [app] in S. destruct (munch_blank d (s ++ rest') D) as (s1 & rest1 & M1 & E1 & L1).
  assert (X : rest1 = rest').
  { assert (LS : length s1 = length s).
    { rewrite L1. rewrite E in L. cbn [app] in L. rewrite run_cons in L by easy. simpl in L. now injection L. }
    apply (f_equal (skipn (length s))) in E1. rewrite app_skipn, <- LS, app_skipn in E1. auto. }
  subst rest1.
  inversion S as [|i' s' r'' r' pr' ts2 more' M' E' S'|i' s' r'' r' pr' t' ts2 more' M' E' S'|c' r'' ts2 more' X' S']; subst.
  - destruct (munch_unique _ _ _ _ _ _ _ M1 M') as (<- & <- & <-). inversion E'; subst. exact S'.
  - destruct (munch_unique _ _ _ _ _ _ _ M1 M') as (<- & <- & <-). inversion E'.
  - exfalso. now apply (munch_not_stray _ _ _ _ M1).
Qed.

Lemma scan_noise c rest ts more : noise c -> scans rest ts more -> scans (c :: rest) ts more.
Proof.
  intros [W N] S. constructor; [|exact S]. apply stray_intro. intros r _.
  destruct (first_class r c) eqn:F; [exfalso|easy].
  assert (X : is_word c = false). { destruct (is_word c) eqn:Y; [|easy]. elim W. now apply wordchar_iff. }
  simpl in N. destruct r; cbn [first_class] in F.
  - apply blank_iff in F. destruct F as [->| ->]; apply N; auto 10.
  - apply beq_eq in F. subst. apply N; auto 10.
  - apply beq_eq in F. subst. apply N; auto 10.
  - destruct k; destruct c; cbv in F; try discriminate; cbv in X; discriminate.
  - apply beq_eq in F. subst. apply N; auto 10.
  - apply beq_eq in F. subst. apply N; auto 10.
  - apply beq_eq in F. subst. apply N; auto 10.
  - unfold is_word in X. rewrite F in X. discriminate.
  - unfold is_word in X. rewrite F, orb_true_r in X. discriminate.
  - apply beq_eq in F. subst. apply N; auto 10.
Qed.

Lemma munch_comment s rest : ~ In newline s -> match rest with [] => True | c :: _ => c = newline end ->
  munch ("#"%byte :: s ++ rest) ("#"%byte :: s) rest R_comment.
Proof.
  intros N R.
  assert (B : best_match rules ("#"%byte :: s ++ rest) None = Some (R_comment, S (length s))).
  { replace (length s) with (run (fun c => negb (beq c newline)) (s ++ rest)).
    { generalize (s ++ rest). intros u. vm_compute. reflexivity. }
    apply run_exact.
    - apply Forall_forall. intros c I. apply negb_true_iff, beq_neq. intros ->. easy.
    - destruct rest; [easy|]. subst. reflexivity. }
  pose proof (best_munch ("#"%byte :: s ++ rest)) as M. rewrite B in M. destruct M as (s' & rest' & L & M).
  pose proof M as (E & _). destruct s' as [|d s']; [discriminate L|]. injection E as <- E. injection L as L.
  assert (s' = s). { rewrite <- (app_firstn s rest), E, L, app_firstn. reflexivity. }
  subst s'. apply app_inv_head in E. subst rest'. exact M.
Qed.

Lemma scan_comment s rest ts more : ~ In newline s -> match rest with [] => True | c :: _ => c = newline end ->
  scans rest ts more -> scans ("#"%byte :: s ++ rest) ts more.
Proof.
  intros N R S. change more with ([] ++ more). eapply scans_skip; [now apply munch_comment|constructor|exact S].
Qed.

Lemma scan_gap g : gap g -> forall rest ts more, scans rest ts more -> scans (g ++ rest) ts more.
Proof.
  induction 1 as [|c g C G IH|s g N G IH]; intros rest ts more S.
  - exact S.
  - cbn [app]. apply IH in S. destruct C as [C|[C|[C|C]]].
    + apply scan_blank; auto.
    + apply scan_blank; auto.
    + subst c. now apply scan_newline.
    + now apply scan_noise.
  - cbn [app]. rewrite <- app_assoc. apply scan_comment; [exact N|reflexivity|]. cbn [app]. apply scan_newline. now apply IH.
Qed.

Lemma layout_scans ts text : layout ts text -> scans text ts [].
Proof.
  induction 1 as [g G|g t s ts text G SP L IH NW].
  - destruct G as [G|(g' & c & -> & G & N)].
    + rewrite <- (app_nil_r g). apply scan_gap; [easy|constructor].
    + apply scan_gap; [easy|]. rewrite <- (app_nil_r c). apply scan_comment; auto. constructor.
  - apply scan_gap; [easy|]. destruct SP; cbn [is_punctuation] in NW.
    + apply (scans_token _ s text (R_key k) [] _ ts []); [apply munch_key; [exact H|exact (NW eq_refl)]|constructor|exact IH].
    + cbn [bs list_byte_of_string app]. eapply (scan_punctuation _ R_open); [vm_compute; reflexivity|constructor|exact IH].
    + eapply (scan_punctuation _ R_close); [vm_compute; reflexivity|constructor|exact IH].
    + eapply (scan_punctuation _ R_eol); [vm_compute; reflexivity|constructor|exact IH].
    + apply (scans_token _ s text R_id [] _ ts []); [apply munch_id; [exact H|exact H0|exact (NW eq_refl)]|constructor|exact IH].
    + apply (scans_token _ (quote :: s ++ [quote]) text R_qstring [] _ ts []); [now apply munch_qstring|now apply emits_qstring|exact IH].
    + rewrite <- to_int_small by easy.
      apply (scans_token _ s text R_number [] _ ts []); [|refine (emits_number _ _ _ H0 _); now apply as_int_iff|exact IH].
      apply munch_number; [exact H|exact (digits_decimal _ _ H0)|exact (NW eq_refl)].
Qed.
