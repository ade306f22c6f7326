(** * Proofs about arbitrary table files *)

From Verif Require Import Base BaseFacts Stdio StdioFacts Table TableSpec TableProofs ParseTable ParseTableSpec
  ParseTableProofs TableFileSpec.

Local Open Scope nat_scope.

(** ** White space *)

Lemma space_iff c : space c <-> is_space c = true.
Proof. unfold space. now rewrite is_space_iff. Qed.

Lemma all_space_iff s : all_space s <-> spaces s.
Proof.
  unfold all_space, spaces. rewrite !Forall_forall. split; intros H c I; apply space_iff; auto.
Qed.

Lemma begins_iff s : begins s <-> stops s.
Proof.
  unfold begins. destruct s as [|c s]; simpl.
  - split; [auto|discriminate].
  - split.
    + intros H. destruct (is_space c) eqn:E; [|reflexivity]. exfalso. apply (H c s eq_refl). now apply space_iff.
    + intros H c' r [= <- <-]. rewrite space_iff. congruence.
Qed.

Lemma ends_iff s : ends s <-> breaks s.
Proof.
  unfold ends. destruct s as [|c s]; simpl.
  - split; [auto|discriminate].
  - split.
    + intros H. apply space_iff. eauto.
    + intros H c' r [= <- <-]. now apply space_iff.
Qed.

Lemma skip_space_inv s : exists a, s = a ++ snd (skip_space s) /\ spaces a /\ stops (snd (skip_space s)).
Proof.
  destruct (stops_dec s) as (a & r & -> & A & R). exists a. rewrite skip_space_spec by auto. auto.
Qed.

Lemma skip_space_nil s : snd (skip_space s) = [] <-> spaces s.
Proof.
  destruct (skip_space_inv s) as (a & E & A & _). split.
  - intros H. rewrite H, app_nil_r in E. now subst a.
  - intros H. now rewrite skip_spaces.
Qed.

(** ** Words *)

Definition word_at (s : str) : option (str * str) :=
  match snd (skip_space s) with
  | [] => None
  | r => let (w, r') := scan_until is_space r in Some (w, snd (skip_space r'))
  end.

Lemma scan_until_inv stop s : let '(w, r) := scan_until stop s in
  s = w ++ r /\ Forall (fun c => stop c = false) w /\ match r with [] => True | c :: _ => stop c = true end.
Proof.
  induction s as [|c s IH]; simpl; [auto|]. destruct (stop c) eqn:E; [auto|].
  destruct (scan_until stop s) as [w r]. destruct IH as (-> & F & R). splits; auto.
Qed.

Lemma word_at_none s : word_at s = None <-> all_space s.
Proof.
  rewrite all_space_iff, <- skip_space_nil. unfold word_at. destruct (snd (skip_space s)) as [|c r]; [easy|].
  destruct (scan_until is_space (c :: r)). easy.
Qed.

Lemma headed_iff s w r : headed s w r <-> word_at s = Some (w, r).
Proof.
  split.
  - intros (a & b & -> & A & W & B & R & N). apply all_space_iff in A, B. apply begins_iff in R. unfold word_at.
    rewrite skip_space_spec by (auto; now apply word_stops). cbn [snd].
    destruct (w ++ b ++ r) as [|c s] eqn:E; [destruct W as [W _]; now destruct w|]. rewrite <- E.
    rewrite scan_until_spec; [|now apply word_nonspace|].
    + now rewrite skip_space_spec.
    + destruct b as [|c' b]; [now rewrite N|]. cbn. now inversion B.
  - unfold word_at. destruct (skip_space_inv s) as (a & E & A & R0). destruct (snd (skip_space s)) as [|c s0] eqn:F; [discriminate|].
    pose proof (scan_until_inv is_space (c :: s0)) as H. destruct (scan_until is_space (c :: s0)) as [w' r1].
    destruct H as (H1 & H2 & H3). intros [= <- <-]. destruct (skip_space_inv r1) as (b & E1 & B & R1).
    exists a, b. rewrite <- E1, <- H1. splits; auto; try (now apply all_space_iff); try (now apply begins_iff).
    + split.
      * intros ->. cbn [app] in H1. subst r1. cbn in R0. congruence.
      * eapply Forall_impl; [|exact H2]. cbv beta. intros x Hx. apply not_blank. exact Hx.
    + intros ->. cbn [app] in E1. destruct r1 as [|x r1]; [reflexivity|].
      rewrite <- E1 in R1. cbn in R1. congruence.
Qed.

(** ** Texts *)

Definition text_of (former s : str) : str :=
  match s with
  | c :: r =>
    if beq c double_quote || beq c single_quote then
      match fst (scan_until (beq c) r) with [] => former | w => w end
    else fst (scan_until is_space s)
  | [] => former
  end.

Lemma quote_iff c : In c [double_quote; single_quote] <-> beq c double_quote || beq c single_quote = true.
Proof. rewrite orb_true_iff, !beq_eq. simpl. intuition. Qed.

Lemma scan_until_quote q text r : ~ In q text -> (r = [] \/ exists r', r = q :: r') -> scan_until (beq q) (text ++ r) = (text, r).
Proof.
  intros N R. apply scan_until_spec.
  - apply Forall_forall. intros c I. apply beq_neq. now intros ->.
  - destruct R as [->|(r' & ->)]; [exact I|apply beq_refl].
Qed.

Lemma text_at_iff former c r x : stops (c :: r) -> text_at former (c :: r) x <-> text_of former (c :: r) = x.
Proof.
  intros S. split.
  - intros T. inversion T as [q text r' Q NE NI R E1|q r' Q R|c' text r' Q W R E1]; subst.
    + unfold text_of. apply quote_iff in Q. rewrite Q, scan_until_quote by auto. now destruct x.
    + unfold text_of. apply quote_iff in Q. rewrite Q.
      change r with ([] ++ r). now rewrite scan_until_quote by auto.
    + unfold text_of. rewrite quote_iff in Q. apply not_true_is_false in Q. rewrite Q.
      change (c :: text ++ r') with ((c :: text) ++ r'). rewrite scan_until_spec; [reflexivity|now apply word_nonspace|].
      apply ends_iff in R. now destruct r'.
  - intros <-. unfold text_of. destruct (beq c double_quote || beq c single_quote) eqn:Q.
    + apply quote_iff in Q. pose proof (scan_until_inv (beq c) r) as H. destruct (scan_until (beq c) r) as [w r'].
      destruct H as (-> & F & R). cbn [fst].
      assert (R' : r' = [] \/ exists r'', r' = c :: r'').
      { destruct r' as [|x r']; [now left|]. right. apply beq_eq in R. subst x. eauto. }
      destruct w as [|x w].
      * now apply text_empty.
      * apply text_quoted; auto; [discriminate|]. intros I. rewrite Forall_forall in F. apply F in I.
        now rewrite beq_refl in I.
    + pose proof (scan_until_inv is_space (c :: r)) as H. destruct (scan_until is_space (c :: r)) as [w r'] eqn:E.
      destruct H as (H1 & F & R). cbn [fst]. destruct w as [|x w].
      * cbn in E. cbn in S. rewrite S in E. now destruct (scan_until is_space r).
      * rewrite H1. injection H1 as <- H1. apply text_bare.
        -- rewrite quote_iff. congruence.
        -- split; [discriminate|]. eapply Forall_impl; [|exact F]. intros y Hy. now apply not_blank.
        -- apply ends_iff. now destruct r'.
Qed.

(** ** Numbers *)

Lemma digit_value_iff base c d : (base <= 16)%N -> digit_value base c = Some d <-> (d < base)%N /\ digit c d.
Proof.
  intros B. split.
  - intros H.
    assert (Q : forall c, match digit_value 16 c with
                          | Some d => existsb (fun x => beq c (nth (N.to_nat d) x x00)) [bs "0123456789abcdef"; bs "0123456789ABCDEF"] && (d <? 16)%N
                          | None => true end = true).
    { apply byte_sweep. vm_compute. reflexivity. }
    assert (H16 : digit_value 16 c = Some d /\ (d < base)%N).
    { unfold digit_value in *.
      match type of H with match ?v with _ => _ end = _ => destruct v as [d'|]; [|discriminate] end.
      destruct (N.ltb_spec d' base); [|discriminate]. injection H as <-. split; [|auto].
      destruct (N.ltb_spec d' 16); [reflexivity|lia]. }
    destruct H16 as [H16 L]. split; [auto|]. specialize (Q c). rewrite H16 in Q. apply andb_true_iff in Q. destruct Q as [Q L16].
    apply N.ltb_lt in L16. unfold digit. cbn [existsb] in Q. rewrite orb_false_r, orb_true_iff, !beq_eq in Q.
    destruct Q as [Q|Q]; [left|right]; rewrite Q; apply nth_error_nth'; change (length _) with 16; lia.
  - intros [L D]. now apply digit_value_spec.
Qed.

Lemma no_digit_iff base s : (base <= 16)%N -> no_digit base s <-> match s with [] => True | c :: _ => digit_value base c = None end.
Proof.
  intros B. unfold no_digit. destruct s as [|c s]; [split; [auto|discriminate]|]. split.
  - intros H. destruct (digit_value base c) as [d|] eqn:E; [|reflexivity]. exfalso. apply digit_value_iff in E; auto.
    now apply (H c s d eq_refl).
  - intros H c' r d [= <- <-] D L.
    assert (X : digit_value base c = Some d) by (now apply digit_value_iff). congruence.
Qed.

Lemma scan_digits_exact base s ds r : (base <= 16)%N -> Forall2 digit s ds -> Forall (fun d => d < base)%N ds -> no_digit base r ->
  forall acc, scan_digits base acc (s ++ r) = (fold_left (fun v d => base * v + d)%N ds acc, length s, r).
Proof.
  intros B H L R. apply no_digit_iff in R; auto. induction H as [|c d s ds D H IH]; intros acc; simpl.
  - destruct r as [|c r]; simpl; [reflexivity|]. now rewrite R.
  - inversion L; subst. rewrite (digit_value_spec base c d) by auto. now rewrite IH.
Qed.

Lemma scan_digits_inv base : (base <= 16)%N -> forall s acc, let '(v, n, r) := scan_digits base acc s in
  exists p ds, s = p ++ r /\ n = length p /\ Forall2 digit p ds /\ Forall (fun d => d < base)%N ds /\ no_digit base r /\
    v = fold_left (fun v d => base * v + d)%N ds acc.
Proof.
  intros B s. induction s as [|c s IH]; intros acc; simpl.
  - exists [], []. splits; auto. now apply no_digit_iff.
  - destruct (digit_value base c) as [d|] eqn:E.
    + specialize (IH (base * acc + d)%N). destruct (scan_digits base (base * acc + d) s) as [[v n] r].
      destruct IH as (p & ds & -> & -> & F & L & R & ->). apply digit_value_iff in E; auto. destruct E as [E1 E2].
      exists (c :: p), (d :: ds). splits; auto.
    + exists [], []. splits; auto. now apply no_digit_iff.
Qed.

Lemma magnitude_iff s v r : magnitude s v r <-> scan_magnitude s = Some (v, r).
Proof.
  split.
  - intros [c s' v' r' C (ds & F & L & ->) R|x s' v' r' X (ds & F & L & ->) R|s' v' r' (ds & F & L & ->) R X]; unfold scan_magnitude.
    + cbn [app]. apply beq_neq in C. rewrite C. change (c :: s' ++ r') with ((c :: s') ++ r').
      now rewrite (scan_digits_exact 10 (c :: s') ds) by (auto; lia).
    + rewrite beq_refl. replace (beq x "x" || beq x "X") with true by (destruct X; subst x; reflexivity).
      now rewrite (scan_digits_exact 16 s' ds) by (auto; lia).
    + rewrite beq_refl. destruct (s' ++ r') as [|x q] eqn:E.
      * apply app_eq_nil in E. destruct E as [-> ->]. now inversion F.
      * destruct (X x q eq_refl) as [X1 X2]. apply beq_neq in X1, X2. rewrite X1, X2. cbn [orb].
        rewrite <- E. now rewrite (scan_digits_exact 8 s' ds) by (auto; lia).
  - unfold scan_magnitude. destruct s as [|c s]; [discriminate|]. destruct (beq c "0") eqn:C.
    + apply beq_eq in C. subst c. destruct s as [|x s].
      * intros [= <- <-]. apply (mag_octal [] 0 []).
        -- now exists [].
        -- now apply no_digit_iff.
        -- discriminate.
      * destruct (beq x "x" || beq x "X") eqn:X.
        -- pose proof (scan_digits_inv 16 ltac:(lia) s 0%N) as H. destruct (scan_digits 16 0 s) as [[v' n] r'].
           destruct H as (p & ds & -> & -> & F & L & R & ->). intros [= <- <-]. apply mag_hex; auto.
           ++ apply orb_true_iff in X. now rewrite !beq_eq in X.
           ++ now exists ds.
        -- pose proof (scan_digits_inv 8 ltac:(lia) (x :: s) 0%N) as H. destruct (scan_digits 8 0 (x :: s)) as [[v' n] r'].
           destruct H as (p & ds & E & -> & F & L & R & ->). intros [= <- <-]. rewrite E. apply mag_octal; auto.
           ++ now exists ds.
           ++ intros x' q Q. rewrite <- E in Q. injection Q as <- <-. apply orb_false_iff in X. now rewrite !beq_neq in X.
    + apply beq_neq in C. pose proof (scan_digits_inv 10 ltac:(lia) (c :: s) 0%N) as H. destruct (scan_digits 10 0 (c :: s)) as [[v' n] r'].
      destruct H as (p & ds & E & -> & F & L & R & ->). destruct p as [|c' p]; [discriminate|]. cbn [length].
      intros [= <- <-]. rewrite E. injection E as <- E. apply mag_decimal; auto. now exists ds.
Qed.

Definition number_at (s : str) : option (Z * str) :=
  match snd (skip_space s) with
  | [] => None
  | c :: r' =>
    let '(negative, m) := if beq c "-" then (true, r') else if beq c "+" then (false, r') else (false, c :: r') in
    match scan_magnitude m with
    | None => None
    | Some (v, rest) => Some (to_int (if negative then - Z.of_N v else Z.of_N v), snd (skip_space rest))
    end
  end.

Lemma magnitude_head m v r : magnitude m v r -> exists c s, m = c :: s /\ is_space c = false /\ c <> "-"%byte /\ c <> "+"%byte.
Proof.
  intros [c s' v' r' C (ds & F & L & ->) R|x s' v' r' X D R|s' v' r' D R X].
  - inversion F as [|c' d s2 ds' Dg F']; subst. inversion L; subst. exists c, (s' ++ r'). split; [reflexivity|].
    destruct (digit_not c d); intuition lia.
  - eexists _, _. splits; [reflexivity|reflexivity|discriminate|discriminate].
  - eexists _, _. splits; [reflexivity|reflexivity|discriminate|discriminate].
Qed.

Lemma numbered_iff s n r : numbered s n r <-> number_at s = Some (n, r).
Proof.
  split.
  - intros (a & m & z & b & -> & A & (v & m' & M & S) & I & B & R). apply all_space_iff in A, B. apply begins_iff in R.
    apply as_int_iff in I. subst n. unfold number_at.
    destruct (magnitude_head _ _ _ M) as (c & q & E & C & C1 & C2). apply magnitude_iff in M.
    assert (K : stops m). { destruct S as [(-> & _)|[(-> & _)|(-> & _)]]; [rewrite E; exact C|reflexivity|reflexivity]. }
    rewrite skip_space_spec by auto. cbn [snd].
    destruct S as [(-> & ->)|[(-> & ->)|(-> & ->)]].
    + rewrite E. apply beq_neq in C1, C2. rewrite C1, C2. rewrite <- E, M. now rewrite skip_space_spec.
    + replace (beq "+" "-") with false by reflexivity. rewrite beq_refl, M. now rewrite skip_space_spec.
    + rewrite beq_refl, M. now rewrite skip_space_spec.
  - unfold number_at. destruct (skip_space_inv s) as (a & E & A & R0). destruct (snd (skip_space s)) as [|c s0]; [discriminate|].
    destruct (if beq c "-" then (true, s0) else if beq c "+" then (false, s0) else (false, c :: s0)) as [neg m] eqn:G.
    destruct (scan_magnitude m) as [[v rest]|] eqn:M; [|discriminate]. intros [= <- <-].
    destruct (skip_space_inv rest) as (b & E1 & B & R1).
    exists a, (c :: s0), (if neg then (- Z.of_N v)%Z else Z.of_N v), b. splits; auto; try (now apply all_space_iff); try (now apply begins_iff).
    + rewrite <- E1. exists v, m. split; [now apply magnitude_iff|].
      destruct (beq c "-") eqn:C1; [apply beq_eq in C1; injection G as <- <-; subst; auto|].
      destruct (beq c "+") eqn:C2; [apply beq_eq in C2; injection G as <- <-; subst; auto|].
      injection G as <- <-. auto.
    + now apply as_int_iff.
Qed.

(** ** Lines *)

Definition meaning (locale : str) (i : bool) (s : str) : bool * directive :=
  if is_hash s then (i, Nothing)
  else if i then
    let word := match word_at s with Some (w, _) => negb (strncaseeq 5 w (bs "end")) | None => true end in
    match number_at s with
    | None => (word, Nothing)
    | Some (n, r) =>
      if (n <? 0)%Z then (word, Nothing)
      else (true, match r with [] => Nothing | _ => Entry (Z.to_N n) (text_of [] r) end)
    end
  else
    match word_at s with
    | None => (false, Nothing)
    | Some (w, r) =>
      if strncaseeq 5 w (bs "start") then
        (match r with [] => true | _ => strncaseeq (length (text_of w r)) (text_of w r) locale end, Nothing)
      else if strncaseeq 7 w (bs "default") then
        (false, Default (match r with [] => None | _ => Some (text_of w r) end))
      else (false, Nothing)
    end.

Lemma start_iff w : strncaseeq 5 w (bs "start") = true <-> begins_with (bs "start") w.
Proof. apply (strncaseeq_prefix (bs "start")). Qed.
Lemma default_iff w : strncaseeq 7 w (bs "default") = true <-> begins_with (bs "default") w.
Proof. apply (strncaseeq_prefix (bs "default")). Qed.
Lemma end_iff w : strncaseeq 5 w (bs "end") = true <-> same_text w (bs "end").
Proof. apply strncaseeq_all. simpl. lia. Qed.
Lemma locale_iff x locale : strncaseeq (length x) x locale = true <-> begins_with x locale.
Proof. rewrite strncaseeq_sym. apply strncaseeq_prefix. Qed.

Lemma false_iff (b : bool) (P : Prop) : (b = true <-> P) -> b = false <-> ~ P.
Proof. intros H. rewrite <- H. destruct b; intuition congruence. Qed.

Lemma word_at_stops s w r : word_at s = Some (w, r) -> stops r.
Proof. intros H. apply headed_iff in H. destruct H as (a & b & _ & _ & _ & _ & H & _). now apply begins_iff. Qed.

Lemma number_at_stops s n r : number_at s = Some (n, r) -> stops r.
Proof. intros H. apply numbered_iff in H. destruct H as (a & m & z & b & _ & _ & _ & _ & _ & H). now apply begins_iff. Qed.

Lemma hash_word_at s w r : is_hash s = true -> word_at s = Some (w, r) -> exists w', w = "#"%byte :: w'.
Proof.
  destruct s as [|c s]; [discriminate|]. cbn [is_hash]. intros H. apply beq_eq in H. subst c. unfold word_at.
  change (snd (skip_space ("#"%byte :: s))) with ("#"%byte :: s). cbv iota.
  change (scan_until is_space ("#"%byte :: s)) with (let (w, r') := scan_until is_space s in ("#"%byte :: w, r')).
  destruct (scan_until is_space s) as [w' r']. intros [= <- <-]. eauto.
Qed.

Lemma hash_number_at s : is_hash s = true -> number_at s = None.
Proof.
  destruct s as [|c s]; [discriminate|]. cbn [is_hash]. intros H. apply beq_eq in H. now subst c.
Qed.

Lemma spaces_number_at s : all_space s -> number_at s = None.
Proof. intros H. apply all_space_iff in H. unfold number_at. now rewrite (proj2 (skip_space_nil s) H). Qed.

Lemma hash_not_start w : strncaseeq 5 ("#"%byte :: w) (bs "start") = false.
Proof. reflexivity. Qed.
Lemma hash_not_default w : strncaseeq 7 ("#"%byte :: w) (bs "default") = false.
Proof. reflexivity. Qed.
Lemma hash_not_end w : strncaseeq 5 ("#"%byte :: w) (bs "end") = false.
Proof. reflexivity. Qed.

Lemma end_no_number s w r : word_at s = Some (w, r) -> same_text w (bs "end") -> number_at s = None.
Proof.
  intros W E. apply headed_iff in W. destruct W as (a & b & -> & A & W & B & R & N). apply all_space_iff in A.
  unfold number_at. rewrite skip_space_spec by (auto; now apply word_stops). cbn [snd].
  destruct w as [|c w]; [now destruct W|]. inversion E as [|x y l l' S _]; subst. cbn [app].
  apply same_letter_iff in S.
  assert (Q : forall c, (if beq (to_lower c) "e" then negb (beq c "-") && negb (beq c "+") && negb (beq c "0") &&
                match digit_value 10 c with None => true | _ => false end else true) = true).
  { apply byte_sweep. vm_compute. reflexivity. }
  specialize (Q c). rewrite S in Q. change (beq (to_lower "e"%byte) "e") with true in Q. cbv iota in Q.
  destruct (beq c "-"); [discriminate|]. destruct (beq c "+"); [discriminate|].
  unfold scan_magnitude. destruct (beq c "0"); [discriminate|]. cbn [scan_digits].
  destruct (digit_value 10 c); [discriminate|reflexivity].
Qed.

(** Every text has the meaning computed here, and no other. *)
Theorem means_iff locale i s j d : means locale i s j d <-> meaning locale i s = (j, d).
Proof.
  split.
  - intros H. unfold meaning. destruct H as [i r|i s A|s w W S|s w c r x W S T P|s w c r x W S T P|s w W D|s w c r x W D T|s w r W S D
      |s n c r x M P T|s n M P|s w r W E|s w r M W E];
      try (apply headed_iff in W); try (apply numbered_iff in M).
    + cbn [is_hash]. now rewrite beq_refl.
    + rewrite (spaces_number_at s A). apply word_at_none in A. rewrite A. now destruct (is_hash s), i.
    + destruct (is_hash s) eqn:H.
      { destruct (hash_word_at _ _ _ H W) as (w' & ->). apply start_iff in S. now rewrite hash_not_start in S. }
      rewrite W. apply start_iff in S. now rewrite S.
    + destruct (is_hash s) eqn:H.
      { destruct (hash_word_at _ _ _ H W) as (w' & ->). apply start_iff in S. now rewrite hash_not_start in S. }
      rewrite W. apply start_iff in S. rewrite S. apply text_at_iff in T; [|now apply (word_at_stops s w)].
      rewrite T. apply locale_iff in P. now rewrite P.
    + destruct (is_hash s) eqn:H.
      { destruct (hash_word_at _ _ _ H W) as (w' & ->). apply start_iff in S. now rewrite hash_not_start in S. }
      rewrite W. apply start_iff in S. rewrite S. apply text_at_iff in T; [|now apply (word_at_stops s w)].
      rewrite T. apply (false_iff _ _ (locale_iff x locale)) in P. now rewrite P.
    + destruct (is_hash s) eqn:H.
      { destruct (hash_word_at _ _ _ H W) as (w' & ->). apply default_iff in D. now rewrite hash_not_default in D. }
      rewrite W. pose proof (start_not_default w D) as S. apply (false_iff _ _ (start_iff w)) in S. rewrite S.
      apply default_iff in D. now rewrite D.
    + destruct (is_hash s) eqn:H.
      { destruct (hash_word_at _ _ _ H W) as (w' & ->). apply default_iff in D. now rewrite hash_not_default in D. }
      rewrite W. pose proof (start_not_default w D) as S. apply (false_iff _ _ (start_iff w)) in S. rewrite S.
      apply default_iff in D. rewrite D. apply text_at_iff in T; [|now apply (word_at_stops s w)]. now rewrite T.
    + destruct (is_hash s); [reflexivity|]. rewrite W. apply (false_iff _ _ (start_iff w)) in S. apply (false_iff _ _ (default_iff w)) in D.
      now rewrite S, D.
    + destruct (is_hash s) eqn:H; [rewrite (hash_number_at _ H) in M; discriminate|]. rewrite M.
      destruct (Z.ltb_spec n 0); [lia|]. apply text_at_iff in T; [|now apply (number_at_stops s n)]. now rewrite T.
    + destruct (is_hash s) eqn:H; [rewrite (hash_number_at _ H) in M; discriminate|]. rewrite M.
      destruct (Z.ltb_spec n 0); [lia|]. reflexivity.
    + destruct (is_hash s) eqn:H.
      { destruct (hash_word_at _ _ _ H W) as (w' & ->). apply end_iff in E. now rewrite hash_not_end in E. }
      rewrite (end_no_number _ _ _ W E), W. apply end_iff in E. now rewrite E.
    + destruct (is_hash s); [reflexivity|]. rewrite W. apply (false_iff _ _ (end_iff w)) in E. rewrite E.
      destruct (number_at s) as [[n r']|] eqn:Q; [|reflexivity].
      assert (X : (n < 0)%Z). { apply (M n r'). now apply numbered_iff. }
      apply Z.ltb_lt in X. now rewrite X.
  - unfold meaning. destruct (is_hash s) eqn:H.
    { intros [= <- <-]. destruct s as [|c s]; [discriminate|]. cbn [is_hash] in H. apply beq_eq in H. subst c. constructor. }
    destruct i.
    + assert (WD : (forall n r, number_at s = Some (n, r) -> (n < 0)%Z) ->
        means locale true s (match word_at s with Some (w, _) => negb (strncaseeq 5 w (bs "end")) | None => true end) Nothing).
      { intros N. destruct (word_at s) as [[w r]|] eqn:W; [|apply means_blank; now apply word_at_none].
        destruct (strncaseeq 5 w (bs "end")) eqn:E; cbn [negb].
        - apply (means_end _ s w r); [now apply headed_iff|now apply end_iff].
        - apply (means_inside _ s w r); [|now apply headed_iff|now apply (false_iff _ _ (end_iff w))].
          intros n r' M. apply numbered_iff in M. eauto. }
      destruct (number_at s) as [[n r]|] eqn:M.
      * destruct (Z.ltb_spec n 0) as [L|L].
        -- intros [= <- <-]. apply WD. now intros n' r' [= <- <-].
        -- intros [= <- <-]. destruct r as [|c r].
           ++ apply (means_number _ s n); [now apply numbered_iff|auto].
           ++ apply (means_entry _ s n c r); [now apply numbered_iff|auto|].
              apply text_at_iff; [now apply (number_at_stops s n)|reflexivity].
      * intros [= <- <-]. now apply WD.
    + destruct (word_at s) as [[w r]|] eqn:W; [|intros [= <- <-]; apply means_blank; now apply word_at_none].
      pose proof (word_at_stops _ _ _ W) as K. apply headed_iff in W.
      destruct (strncaseeq 5 w (bs "start")) eqn:S; [|destruct (strncaseeq 7 w (bs "default")) eqn:D]; intros [= <- <-].
      * apply start_iff in S. destruct r as [|c r]; [now apply (means_start _ s w)|].
        destruct (strncaseeq (length (text_of w (c :: r))) (text_of w (c :: r)) locale) eqn:L.
        -- apply (means_start_yes _ s w c r (text_of w (c :: r))); auto; [now apply text_at_iff|now apply locale_iff].
        -- apply (means_start_no _ s w c r (text_of w (c :: r))); auto; [now apply text_at_iff|].
           now apply (false_iff _ _ (locale_iff _ locale)).
      * apply default_iff in D. destruct r as [|c r]; [now apply (means_no_default _ s w)|].
        apply (means_default _ s w c r); auto. now apply text_at_iff.
      * apply (means_outside _ s w r); auto; [now apply (false_iff _ _ (start_iff w))|now apply (false_iff _ _ (default_iff w))].
Qed.

(** ** The scanner *)

Lemma suffix_offset work r : (exists a, work = a ++ r) -> at_offset work (Some (length work - length r)) = Ok r.
Proof.
  intros (a & ->). rewrite app_length. replace (length a + length r - length r) with (length a) by lia. apply at_offset_app.
Qed.

Lemma scan_word_at s : match word_at s with
  | Some (w, r) => exists n, scan_word s = Some (w, n) /\ at_offset s (Some n) = Ok r /\ length w <= length s /\ length r <= length s
  | None => scan_word s = None
  end.
Proof.
  unfold word_at, scan_word, scan_s. destruct (skip_space_inv s) as (a & E & A & R0).
  destruct (skip_space s) as [k s0]. cbn [snd] in *. destruct s0 as [|c s0]; [reflexivity|].
  pose proof (scan_until_inv is_space (c :: s0)) as H. destruct (scan_until is_space (c :: s0)) as [w r1].
  destruct H as (H & _). destruct (skip_space_inv r1) as (b & E1 & B & R1). destruct (skip_space r1) as [k1 r]. cbn [snd] in *.
  exists (length s - length r). splits; auto.
  - apply suffix_offset. exists (a ++ w ++ b). rewrite <- !app_assoc, <- E1, <- H. exact E.
  - rewrite E, H, !app_length. lia.
  - rewrite E, H, E1, !app_length. lia.
Qed.

Lemma scan_number_at s : match number_at s with
  | Some (n, r) => exists k, scan_int s = inl (n, k) /\ at_offset s (Some k) = Ok r /\ length r <= length s
  | None => exists e, scan_int s = inr e
  end.
Proof.
  unfold number_at, scan_int. destruct (skip_space_inv s) as (a & E & A & R0).
  destruct (skip_space s) as [k s0]. cbn [snd] in *. destruct s0 as [|c s0]; [eauto|].
  assert (FIN : forall (neg : bool) m p, c :: s0 = p ++ m ->
    match (match scan_magnitude m with
           | None => None
           | Some (v, rest) => Some (to_int (if neg then - Z.of_N v else Z.of_N v), snd (skip_space rest))
           end) with
    | Some (n, r) =>
      exists k, match scan_magnitude m with
                | None => inr false
                | Some (v, rest) =>
                  let (_, rest') := skip_space rest in
                  inl (to_int (if neg then - Z.of_N v else Z.of_N v), length s - length rest')
                end = inl (n, k) /\ at_offset s (Some k) = Ok r /\ length r <= length s
    | None => exists e, match scan_magnitude m with
                | None => inr false
                | Some (v, rest) =>
                  let (_, rest') := skip_space rest in
                  inl (to_int (if neg then - Z.of_N v else Z.of_N v), length s - length rest')
                end = inr e
    end).
  { intros neg m p M. destruct (scan_magnitude m) as [[v rest]|] eqn:S; [|eauto].
    destruct (skip_space_inv rest) as (b & E1 & B & R1). destruct (skip_space rest) as [k1 r]. cbn [snd] in *.
    assert (Q : exists q, m = q ++ rest).
    { apply magnitude_iff in S. destruct S as [c' s' v' r' C D R|x s' v' r' X D R|s' v' r' D R X].
      - now exists (c' :: s').
      - now exists ("0"%byte :: x :: s').
      - now exists ("0"%byte :: s'). }
    destruct Q as (q & Q). assert (F : s = (a ++ p ++ q ++ b) ++ r).
    { rewrite <- !app_assoc, <- E1, <- Q, <- M. exact E. }
    exists (length s - length r). splits; auto.
    - apply suffix_offset. eauto.
    - rewrite F, app_length. lia. }
  destruct (beq c "-"); [exact (FIN true s0 [c] eq_refl)|]. destruct (beq c "+"); [exact (FIN false s0 [c] eq_refl)|].
  exact (FIN false (c :: s0) [] eq_refl).
Qed.

Lemma scan_text_of c r p : stops (c :: r) -> length (c :: r) <= 1023 -> scan_text (c :: r) p = Ok (text_of p (c :: r)).
Proof.
  intros S L. unfold scan_text, text_of. cbn [length] in L.
  assert (Q : forall q, match scan_set q r with Some w => store_parsed w | None => Ok p end =
                        Ok match fst (scan_until (beq q) r) with [] => p | w => w end).
  { intros q. unfold scan_set. pose proof (scan_until_inv (beq q) r) as H. destruct (scan_until (beq q) r) as [w r'].
    destruct H as (-> & _). cbn [fst]. destruct w; [reflexivity|]. apply store_short. rewrite app_length in L. lia. }
  destruct (beq c double_quote) eqn:E1; [apply beq_eq in E1; subst c; apply Q|].
  destruct (beq c single_quote) eqn:E2; [apply beq_eq in E2; subst c; apply Q|]. cbn [orb].
  unfold scan_s. replace (skip_space (c :: r)) with (0, c :: r) by (cbn; cbn in S; now rewrite S).
  pose proof (scan_until_inv is_space (c :: r)) as H. destruct (scan_until is_space (c :: r)) as [w r'].
  destruct H as (H & _). cbn [fst]. apply store_short. apply (f_equal (@length byte)) in H.
  rewrite app_length in H. cbn [length] in H. lia.
Qed.

Theorem line_meaning locale i s off t j d : length s <= 1023 -> means locale i s j d ->
  exists off', parse_table_line locale s (mkPt i off t) = Ok (option_map (mkPt j off') (effect d t)).
Proof.
  intros L M. apply means_iff in M. unfold meaning in M. unfold parse_table_line. cbn [pt_table pt_inside pt_offset].
  fold (is_hash s). destruct (is_hash s); [injection M as <- <-; cbn; eauto|].
  pose proof (scan_word_at s) as W. pose proof (word_at_stops s) as WS.
  pose proof (scan_number_at s) as I. pose proof (number_at_stops s) as NS.
  destruct i; cbn [negb].
  - assert (WD : forall off0, exists off', (match scan_word s with
       | Some (w, n) => do parsed <- store_parsed w; Ok (Some (mkPt (negb (strncaseeq 5 parsed (bs "end"))) (Some n) t))
       | None => Ok (Some (mkPt true off0 t)) end) =
       Ok (Some (mkPt (match word_at s with Some (w, _) => negb (strncaseeq 5 w (bs "end")) | None => true end) off' t))).
    { intros off0. destruct (word_at s) as [[w r]|].
      - destruct W as (n & -> & _ & LW & _). rewrite store_short by lia. cbn [bind]. eauto.
      - rewrite W. eauto. }
    destruct (number_at s) as [[n r]|].
    + destruct I as (k & -> & O & LR). destruct (n <? 0)%Z.
      * injection M as <- <-. apply WD.
      * injection M as <- <-. rewrite O. cbn [bind]. destruct r as [|c r]; [cbn; eauto|].
        rewrite scan_text_of by (eauto; lia). cbn [bind effect].
        destruct (table_put t (Z.to_N n) (text_of [] (c :: r))) as [t' [o|]]; cbn [option_map]; eauto.
    + destruct I as (e & ->). change (-1 <? 0)%Z with true. cbv iota. injection M as <- <-. apply WD.
  - destruct (word_at s) as [[w r]|].
    + destruct W as (n & -> & O & LW & LR). rewrite store_short by lia. cbn [bind]. rewrite O. cbn [bind].
      specialize (WS w r eq_refl).
      destruct (strncaseeq 5 w (bs "start")); [|destruct (strncaseeq 7 w (bs "default"))]; injection M as <- <-; cbn [effect option_map].
      * destruct r as [|c r]; [eauto|]. rewrite scan_text_of by (auto; lia). cbn [bind]. eauto.
      * destruct r as [|c r]; [eauto|]. rewrite scan_text_of by (auto; lia). cbn [bind]. eauto.
      * eauto.
    + rewrite W. injection M as <- <-. cbn. eauto.
Qed.

(** ** Files *)

Lemma visible_iff p s : visible p s <-> s = cstr p.
Proof.
  split.
  - intros [N [->|(h & ->)]]; symmetry; [now apply cstr_nonul|]. rewrite cstr_app by exact N. cbn. apply app_nil_r.
  - intros ->. split; [apply nonul_cstr|]. induction p as [|c p IH]; [now left|]. cbn [cstr].
    destruct (beq c NUL) eqn:E; [apply beq_eq in E; subst c; right; now exists p|].
    destruct IH as [IH|(h & IH)]; [left|right; exists h]; cbn; now rewrite <- IH.
Qed.

Lemma fgets_pieces b rest contents : contents <> [] -> fgets_bytes 1023 contents = (b, rest) ->
  forall ps, pieces rest ps -> pieces contents (b :: ps).
Proof.
  intros NE F ps P. apply fgets_bytes_spec in F. destruct F as (-> & L & [(t & -> & N)|[N [F|F]]]).
  - rewrite app_length in L. cbn in L. rewrite <- app_assoc. cbn [app]. apply pieces_line; auto. lia.
  - now apply pieces_long.
  - subst rest. inversion P as [|t rest' ps' _ _ _ E|t rest' ps' _ LT _ E|t _ LT]; subst.
    + rewrite app_nil_r in *. destruct (Nat.eq_dec (length b) 1023).
      * rewrite <- (app_nil_r b) at 1. now apply pieces_long.
      * apply pieces_last; auto. destruct b; [easy|]. cbn [length] in *. lia.
    + now destruct t.
    + apply app_eq_nil in E. destruct E as [-> _]. discriminate.
    + cbn in LT. lia.
Qed.

Lemma pieces_fgets contents p ps : pieces contents (p :: ps) ->
  exists rest, fgets_bytes 1023 contents = (p, rest) /\ pieces rest ps /\ contents = p ++ rest /\ 0 < length p.
Proof.
  intros P. inversion P as [|t rest ps' N L P' E|t rest ps' N L P' E|t N L E]; subst.
  - exists rest. splits; auto.
    + apply fgets_line; auto.
    + now rewrite <- app_assoc.
    + rewrite app_length. cbn. lia.
  - exists rest. splits; auto; [|lia]. rewrite <- L. now apply fgets_full.
  - exists []. splits; auto.
    + apply fgets_last; auto. lia.
    + constructor.
    + now rewrite app_nil_r.
    + lia.
Qed.

Lemma loop_means locale : forall ps i j ds contents fuel off t,
  file_means locale i ps j ds -> pieces contents ps -> length contents <= fuel ->
  parse_table_loop fuel locale contents (mkPt i off t) = Ok (effects ds t).
Proof.
  induction ps as [|p ps IH]; intros i j ds contents fuel off t M P L.
  - inversion M; subst. inversion P; subst. destruct fuel; reflexivity.
  - inversion M as [|i' p' s j' d ps' k ds' V M1 M2]; subst.
    destruct (pieces_fgets _ _ _ P) as (rest & F & P' & E & NE).
    destruct fuel as [|fuel]; [rewrite E, app_length in L; lia|].
    cbn [parse_table_loop]. unfold next_line. change (TABLE_BUFFER - 1) with 1023. rewrite F.
    destruct contents as [|c contents]; [destruct p; [cbn in NE; lia|discriminate]|].
    apply visible_iff in V. subst s.
    assert (LP : length (cstr p) <= 1023).
    { pose proof (cstr_length p). apply fgets_bytes_spec in F. destruct F as (_ & F & _). lia. }
    destruct (line_meaning locale i (cstr p) off t j' d LP M1) as (off' & ->). cbn [bind effects].
    destruct (effect d t) as [t'|]; cbn [option_map]; [|reflexivity].
    apply (IH j' j ds' rest fuel off' t'); auto.
    rewrite E, app_length in L. lia.
Qed.

(** Every file has pieces, and one list of them only; likewise what they mean. *)
Lemma pieces_total : forall n contents, length contents <= n -> exists ps, pieces contents ps.
Proof.
  induction n as [|n IH]; intros contents L.
  - destruct contents; [|cbn in L; lia]. exists []. constructor.
  - destruct contents as [|c contents]; [exists []; constructor|].
    destruct (fgets_bytes 1023 (c :: contents)) as [b rest] eqn:F. pose proof (fgets_bytes_spec _ _ _ _ F) as (E & _ & H).
    assert (NE : 0 < length b).
    { destruct b; [|cbn; lia]. exfalso. cbn [app] in E. subst rest. destruct H as [(t & H & _)|[_ [H|H]]]; [now destruct t|discriminate|discriminate]. }
    destruct (IH rest) as (ps & P).
    { rewrite E, app_length in L. lia. }
    exists (b :: ps). eapply fgets_pieces; eauto. discriminate.
Qed.

Lemma pieces_unique ps : forall contents ps', pieces contents ps -> pieces contents ps' -> ps = ps'.
Proof.
  induction ps as [|p ps IH]; intros contents ps' P P'.
  - inversion P; subst. destruct ps' as [|p' ps']; [reflexivity|]. apply pieces_fgets in P'.
    destruct P' as (rest & _ & _ & E & L). destruct p'; [cbn in L; lia|discriminate].
  - destruct (pieces_fgets _ _ _ P) as (rest & F & P1 & E & L). destruct ps' as [|p' ps'].
    + inversion P'; subst. destruct p; [cbn in L; lia|discriminate].
    + destruct (pieces_fgets _ _ _ P') as (rest' & F' & P1' & _). rewrite F in F'. injection F' as <- <-.
      f_equal. eapply IH; eauto.
Qed.

Lemma file_means_total locale ps : forall i, exists j ds, file_means locale i ps j ds.
Proof.
  induction ps as [|p ps IH]; intros i.
  - exists i, []. constructor.
  - destruct (meaning locale i (cstr p)) as [j d] eqn:M. apply means_iff in M. destruct (IH j) as (k & ds & H).
    exists k, (d :: ds). econstructor; eauto. now apply visible_iff.
Qed.

Lemma file_means_unique locale i ps j ds : file_means locale i ps j ds -> forall j' ds', file_means locale i ps j' ds' -> j = j' /\ ds = ds'.
Proof.
  induction 1 as [i|i p s j d ps k ds V M F IH]; intros j' ds' H.
  - inversion H; subst. auto.
  - inversion H as [|i' p' s' j1 d1 ps' k' ds1 V' M' F']; subst. apply visible_iff in V, V'. subst s s'.
    apply means_iff in M, M'. rewrite M in M'. injection M' as <- <-. destruct (IH _ _ F') as [-> ->]. auto.
Qed.

Lemma file_says_one locale contents : exists ds, file_says locale contents ds /\ forall ds', file_says locale contents ds' -> ds' = ds.
Proof.
  destruct (pieces_total _ contents (le_n _)) as (ps & P). destruct (file_means_total locale ps false) as (j & ds & M).
  exists ds. split; [now exists ps, j|]. intros ds' (ps' & j' & P' & M').
  rewrite <- (pieces_unique _ _ _ P P') in M'. now destruct (file_means_unique _ _ _ _ _ M' _ _ M).
Qed.

Lemma parse_says locale contents ds : file_says locale contents ds ->
  parse_table locale contents = Ok (effects ds (table_init (Z.of_nat (table_capacity (length contents))))).
Proof. intros (ps & j & P & M). unfold parse_table. eapply loop_means; eauto. Qed.

Theorem parse_any locale contents ds : file_says locale contents ds ->
  (In 0%N (map fst (entries ds)) \/ room contents < length (entries ds) -> parse_table locale contents = Ok None) /\
  (~ In 0%N (map fst (entries ds)) -> length (entries ds) <= room contents ->
   exists t, parse_table locale contents = Ok (Some t) /\
     (forall k, table_get t k = last_for k (entries ds)) /\ t_default t = default_of None ds).
Proof.
  intros S. rewrite (parse_says _ _ _ S).
  destruct (start_table contents) as (W & R & D & G). cbv zeta in *.
  set (t0 := table_init _) in *. clearbody t0. split.
  - intros H. f_equal. apply (effects_reject ds t0 W). now rewrite R.
  - intros Z L. destruct (effects ds t0) as [t|] eqn:E.
    + exists t. split; [reflexivity|]. destruct (effects_get _ _ _ W E) as (_ & D' & G').
      rewrite D' , D. split; auto. intros k. rewrite G', G. now destruct (last_for k (entries ds)).
    + exfalso. apply (effects_reject _ _ W) in E. destruct E as [E|E]; [auto|]. rewrite R in E. lia.
Qed.

Lemma one_meaning locale i s : exists j d, means locale i s j d /\ forall j' d', means locale i s j' d' -> j' = j /\ d' = d.
Proof.
  destruct (meaning locale i s) as [j d] eqn:M. exists j, d. split; [now apply means_iff|].
  intros j' d' H. apply means_iff in H. rewrite M in H. now injection H as <- <-.
Qed.

(** ** Documented lines *)

Lemma blanks_space s : blanks s -> all_space s.
Proof. intros H. apply all_space_iff. now apply blanks_spaces. Qed.

Lemma eol_space e : eol e -> all_space e.
Proof. intros H. apply all_space_iff. now apply eol_spaces. Qed.

Lemma all_space_app a b : all_space a -> all_space b -> all_space (a ++ b).
Proof. intros A B. apply Forall_app. auto. Qed.

Lemma token_text text tok e former : token text tok -> eol e ->
  exists c r, tok ++ e = c :: r /\ begins (c :: r) /\ text_at former (c :: r) (or_word text former).
Proof.
  intros T E. pose proof (token_stops _ _ e T) as S. destruct T as [tail W Q T|tail N|tail N].
  - destruct text as [|c text]; [now destruct W|]. rewrite <- app_assoc in *. cbn [app] in *.
    exists c, (text ++ tail ++ e). split; [reflexivity|]. split; [now apply begins_iff|]. cbn [or_word].
    apply (text_bare former c text (tail ++ e)); auto.
    + destruct (Q c text eq_refl). simpl. intuition.
    + apply ends_iff. now apply word_breaks.
  - exists double_quote, (text ++ double_quote :: tail ++ e). split; [cbn; now rewrite <- app_assoc|].
    split; [now apply begins_iff|]. destruct text as [|c text].
    + apply text_empty; [simpl; auto|]. right. now eexists.
    + apply text_quoted; auto; [simpl; auto|discriminate|]. right. now eexists.
  - exists single_quote, (text ++ single_quote :: tail ++ e). split; [cbn; now rewrite <- app_assoc|].
    split; [now apply begins_iff|]. destruct text as [|c text].
    + apply text_empty; [simpl; auto|]. right. now eexists.
    + apply text_quoted; auto; [simpl; auto|discriminate|]. right. now eexists.
Qed.

Lemma bare_headed w l e : bare_line w l -> eol e -> headed (l ++ e) w [].
Proof.
  intros (a & b & -> & A & W & B) E. exists a, (b ++ e). rewrite app_nil_r, <- !app_assoc.
  splits; auto using blanks_space, all_space_app, eol_space. now apply begins_iff.
Qed.

Lemma text_headed w text l e : text_line w text l -> eol e ->
  exists c r, headed (l ++ e) w (c :: r) /\ text_at w (c :: r) (or_word text w).
Proof.
  intros (a & b & tok & -> & A & W & B & N & T) E. destruct (token_text _ _ e w T E) as (c & r & Q & S & X).
  exists c, r. split; [|exact X]. exists a, b. rewrite <- !app_assoc, Q. splits; auto using blanks_space. easy.
Qed.

Lemma first_headed w l e : first_word w l -> eol e -> exists r, headed (l ++ e) w r.
Proof.
  intros (a & b & -> & A & W & B) E. destruct (stops_dec (b ++ e)) as (b' & r & Q & B' & R).
  exists r. exists a, b'. rewrite <- !app_assoc, <- Q. splits; auto using blanks_space.
  - now apply all_space_iff.
  - now apply begins_iff.
  - intros ->. cbn [app] in Q. pose proof (word_breaks b e B E) as K. rewrite Q in K.
    destruct r; [reflexivity|]. cbn in K, R. congruence.
Qed.

Lemma breaks_no_digit base r : (base <= 16)%N -> breaks r -> no_digit base r.
Proof. intros B H. apply no_digit_iff; auto. destruct r; [exact I|]. now apply space_no_digit. Qed.

Lemma numeral_numbered a num v b r : all_space a -> numeral num v -> (v < 2 ^ 31)%N -> all_space b -> begins r -> (b = [] -> r = []) ->
  numbered (a ++ num ++ b ++ r) (Z.of_N v) r.
Proof.
  intros A M V B R N. exists a, (num ++ b ++ r), (Z.of_N v), b. splits; auto.
  - exists v, (num ++ b ++ r). split; [|auto]. apply magnitude_iff. apply scan_magnitude_spec; auto.
    apply all_space_iff in B. destruct b as [|c b]; [rewrite N; simpl; auto|]. now apply breaks_app.
  - apply as_int_iff. now rewrite to_int_small.
Qed.

Theorem says_means locale i l j d e : says locale i l j d -> eol e -> means locale i (l ++ e) j d.
Proof.
  intros H E. destruct H as [i r|i l B|w l W S|w lang l W S P|w lang l W S P|w l W D|w text l W D|w l W S D
    |code text l (a & num & b & tok & -> & A & M & V & B & N & T)|num code l (a & b & -> & A & W & B) M V|w l W X|c w l W X Y].
  - constructor.
  - apply means_blank. auto using all_space_app, blanks_space, eol_space.
  - apply (means_start _ _ w); auto using bare_headed.
  - destruct (text_headed _ _ _ _ W E) as (c & r & W' & X). eapply means_start_yes; eauto.
  - destruct (text_headed _ _ _ _ W E) as (c & r & W' & X). eapply means_start_no; eauto.
  - apply (means_no_default _ _ w); auto using bare_headed.
  - destruct (text_headed _ _ _ _ W E) as (c & r & W' & X). eapply means_default; eauto.
  - destruct (first_headed _ _ _ W E) as (r & W'). eapply means_outside; eauto.
  - destruct (token_text _ _ e [] T E) as (c & r & Q & S & X). rewrite <- !app_assoc, Q.
    replace code with (Z.to_N (Z.of_N code)) by apply N2Z.id.
    replace text with (or_word text []) by (now destruct text).
    eapply means_entry; [|lia|exact X]. apply numeral_numbered; auto using blanks_space. easy.
  - rewrite <- !app_assoc. apply (means_number _ _ (Z.of_N code)); [|lia].
    rewrite <- (app_nil_r (b ++ e)), <- !app_assoc. rewrite (app_assoc b e).
    apply numeral_numbered; auto using blanks_space, all_space_app, eol_space. now apply begins_iff.
  - destruct (first_headed _ _ _ W E) as (r & W'). eapply means_end; eauto.
  - destruct (first_headed _ _ _ W E) as (r & W'). eapply means_inside; eauto.
    intros n r' Q. exfalso. apply numbered_iff in Q. apply headed_iff in W'.
    destruct W as (a & b & -> & A & W & B). apply blanks_spaces in A. rewrite <- !app_assoc in Q. cbn [app] in Q.
    assert (C : is_space c = false). { destruct W as [_ W]. inversion W; subst. now apply nonspace. }
    pose proof (scan_int_word a c w (b ++ e) A C Y) as I. pose proof (scan_number_at (a ++ c :: w ++ b ++ e)) as K.
    rewrite Q in K. destruct K as (k & K & _). congruence.
Qed.
