(** * The generated automaton against the rules

    Each rule of src/config_file_lex.l as a small automaton; the states of the generated
    automaton stand for the sets of rules that are still possible.  That the two agree is
    checked for every state and byte. *)

From Verif Require Import Base BaseFacts Stdio StdioFacts ParseTableSpec ParseTableProofs ConfigLex ConfigSpec ConfigLexProofs ConfigParse
  ParserTables FlexScanner FlexProofs.

Local Open Scope nat_scope.

(** ** The rules as automata; the rule without a name is flex's default rule *)

Definition when (c : bool) (n : nat) : option nat := if c then Some n else None.

Definition rstep (r : option rule) (q : nat) (b : byte) : option nat :=
  match r, q with
  | None, O => Some 1
  | None, _ => None
  | Some R_blank, _ => when (is_blank b) 1
  | Some R_comment, O => when (beq b "#") 1
  | Some R_comment, _ => when (negb (beq b newline)) 1
  | Some R_newline, O => when (beq b newline) 1
  | Some (R_key k), _ =>
    match nth_error (keyword_text k) q with
    | Some c => when (beq (to_lower b) (to_lower c)) (S q)
    | None => None
    end
  | Some R_open, O => when (beq b "{") 1
  | Some R_close, O => when (beq b "}") 1
  | Some R_qstring, O => when (beq b quote) 1
  | Some R_qstring, S O => if beq b quote || beq b newline then Some 2 else Some 1
  | Some R_id, O => when (is_letter b) 1
  | Some R_id, _ => when (is_word b) 1
  | Some R_number, _ => when (is_digit b) 1
  | Some R_eol, O => when (beq b ";") 1
  | _, _ => None
  end.

Definition racc (r : option rule) (q : nat) : bool :=
  match r with
  | Some (R_key k) => q =? length (keyword_text k)
  | Some R_qstring => q =? 2
  | _ => q =? 1
  end.

Fixpoint rrun (r : option rule) (q : nat) (u : list byte) : option nat :=
  match u with
  | [] => Some q
  | b :: v => match rstep r q b with Some q' => rrun r q' v | None => None end
  end.

Definition raccepts (r : option rule) (q : nat) (u : list byte) : Prop := exists q', rrun r q u = Some q' /\ racc r q' = true.

Lemma raccepts_nil r q : raccepts r q [] <-> racc r q = true.
Proof. unfold raccepts. simpl. split; [intros (x & E & A); congruence|eauto]. Qed.

Lemma raccepts_cons r q b u : raccepts r q (b :: u) <-> exists q', rstep r q b = Some q' /\ raccepts r q' u.
Proof.
  unfold raccepts. simpl. destruct (rstep r q b) as [q'|].
  - split; [eauto|]. intros (x & E & H). injection E as <-. exact H.
  - split; [intros (x & E & _); discriminate|intros (x & E & _); discriminate].
Qed.

Lemma when_some c n m : when c n = Some m <-> c = true /\ m = n.
Proof. unfold when. destruct c; split; intros H; try easy; [injection H as <-; auto|destruct H; congruence]. Qed.

(** A loop on one class of bytes. *)
Lemma raccepts_loop r p : (forall b, rstep r 1 b = when (p b) 1) -> racc r 1 = true ->
  forall u, raccepts r 1 u <-> Forall (fun c => p c = true) u.
Proof.
  intros S A u. induction u as [|b u IH].
  - rewrite raccepts_nil. split; auto.
  - rewrite raccepts_cons. split.
    + intros (q & E & H). rewrite S in E. apply when_some in E. destruct E as [E ->]. constructor; [easy|]. now apply IH.
    + intros F. inversion F; subst. exists 1. rewrite S. unfold when. rewrite H1. split; [easy|]. now apply IH.
Qed.

Lemma raccepts_one r c : (forall b, rstep r 0 b = when (beq b c) 1) -> (forall b, rstep r 1 b = None) -> racc r 0 = false -> racc r 1 = true ->
  forall u, raccepts r 0 u <-> u = [c].
Proof.
  intros S S1 A0 A1 u. destruct u as [|b u].
  - rewrite raccepts_nil. split; congruence.
  - rewrite raccepts_cons. split.
    + intros (q & E & H). rewrite S in E. apply when_some in E. destruct E as [E ->]. apply beq_eq in E. subst b.
      destruct u as [|d u]; [easy|]. apply raccepts_cons in H. destruct H as (q' & H & _). rewrite S1 in H. discriminate.
    + intros E. injection E as -> ->. exists 1. rewrite S, beq_refl. split; [easy|]. now apply raccepts_nil.
Qed.

Lemma raccepts_start r p0 : (forall b, rstep r 0 b = when (p0 b) 1) -> racc r 0 = false ->
  forall u, raccepts r 0 u <-> exists c v, u = c :: v /\ p0 c = true /\ raccepts r 1 v.
Proof.
  intros S A u. destruct u as [|b u].
  - rewrite raccepts_nil. split; [congruence|]. intros (c & v & E & _). discriminate.
  - rewrite raccepts_cons. split.
    + intros (q & E & H). rewrite S in E. apply when_some in E. destruct E as [E ->]. eauto.
    + intros (c & v & E & P & H). injection E as -> ->. exists 1. rewrite S, P. auto.
Qed.

Lemma raccepts_key k u : forall q, raccepts (Some (R_key k)) q u <-> q <= length (keyword_text k) /\ same_text u (skipn q (keyword_text k)).
Proof.
  induction u as [|b u IH]; intros q.
  - rewrite raccepts_nil. simpl racc. rewrite Nat.eqb_eq. split.
    + intros ->. split; [lia|]. rewrite skipn_all. constructor.
    + intros [L H]. apply same_text_length in H. rewrite skipn_length in H. simpl in H. lia.
  - rewrite raccepts_cons. cbn [rstep]. destruct (nth_error (keyword_text k) q) as [c|] eqn:N.
    + assert (E : skipn q (keyword_text k) = c :: skipn (S q) (keyword_text k)).
      { revert N. clear. generalize (keyword_text k) as l. intros l. revert l.
        induction q as [|q IH]; intros [|x l] N; try discriminate; simpl in *; [now injection N as ->|]. now apply IH. }
      assert (L : q < length (keyword_text k)) by (apply nth_error_Some; congruence).
      rewrite E. split.
      * intros (q' & W & H). apply when_some in W. destruct W as [W ->]. apply IH in H. split; [lia|].
        constructor; [|apply H]. apply same_letter_iff. now apply beq_eq.
      * intros [_ H]. inversion H; subst. exists (S q). split.
        -- apply when_some. split; [|easy]. apply beq_eq. now apply same_letter_iff.
        -- apply IH. split; [lia|assumption].
    + split; [intros (q' & W & _); discriminate|]. intros [L H]. apply same_text_length in H.
      rewrite skipn_length in H. apply nth_error_None in N. simpl in H. lia.
Qed.

Lemma raccepts_quoted u : raccepts (Some R_qstring) 1 u <->
  exists x d, u = x ++ [d] /\ Forall (fun c => c <> quote /\ c <> newline) x /\ (d = quote \/ d = newline).
Proof.
  induction u as [|b u IH].
  - rewrite raccepts_nil. split; [discriminate|]. intros (x & d & E & _). destruct x; discriminate.
  - rewrite raccepts_cons. cbn [rstep].
    destruct (beq b quote || beq b newline) eqn:Q.
    + assert (B : b = quote \/ b = newline) by (apply orb_true_iff in Q; rewrite !beq_eq in Q; exact Q). split.
      * intros (q & E & H). injection E as <-. destruct u as [|c u].
        -- exists [], b. auto.
        -- apply raccepts_cons in H. destruct H as (q & H & _). discriminate.
      * intros (x & d & E & F & D). exists 2. split; [easy|]. destruct x as [|y x].
        -- injection E as -> ->. now apply raccepts_nil.
        -- injection E as -> ->. inversion F; subst. tauto.
    + assert (B : b <> quote /\ b <> newline) by (apply orb_false_iff in Q; rewrite !beq_neq in Q; exact Q). split.
      * intros (q & E & H). injection E as <-. apply IH in H. destruct H as (x & d & -> & F & D).
        exists (b :: x), d. split; [easy|]. split; [now constructor|easy].
      * intros (x & d & E & F & D). exists 1. split; [easy|]. apply IH. destruct x as [|y x].
        -- injection E as -> ->. tauto.
        -- injection E as -> ->. inversion F; subst. eauto.
Qed.

Lemma raccepts_matches r u : raccepts (Some r) 0 u <-> matches (rule_regex r) u.
Proof.
  destruct r; cbn [rule_regex].
  - rewrite (raccepts_start _ is_blank) by reflexivity. unfold Plus. rewrite matches_char_seq.
    split; intros (c & v & -> & A & B); exists c, v; (split; [easy|]); (split; [now apply blank_iff|]).
    + apply (raccepts_loop _ is_blank) in B; [|reflexivity|reflexivity]. apply matches_star. eapply Forall_iff; [|exact B]. intros x. apply blank_iff.
    + apply (raccepts_loop _ is_blank); [reflexivity|reflexivity|]. apply matches_star in B. eapply Forall_iff; [|exact B]. intros x. symmetry. apply blank_iff.
  - rewrite (raccepts_start _ (fun b => beq b "#"%byte)) by reflexivity. unfold Char; rewrite matches_char_seq.
    assert (X : forall c, c <> newline <-> negb (beq c newline) = true) by (intros c; now rewrite negb_true_iff, beq_neq).
    split; intros (c & v & -> & A & B); exists c, v; (split; [easy|]); (split; [now apply beq_eq|]).
    + apply (raccepts_loop _ (fun b => negb (beq b newline))) in B; [|reflexivity|reflexivity]. apply matches_star. eapply Forall_iff; [|exact B]. exact X.
    + apply (raccepts_loop _ (fun b => negb (beq b newline))); [reflexivity|reflexivity|]. apply matches_star in B. eapply Forall_iff; [|exact B].
      intros x. symmetry. apply X.
  - rewrite (raccepts_one _ newline) by reflexivity. unfold Char. rewrite matches_class. split; [eauto|]. intros (c & -> & ->). easy.
  - rewrite raccepts_key, matches_letters. simpl skipn. split; [easy|]. split; [lia|easy].
  - rewrite (raccepts_one _ "{"%byte) by reflexivity. unfold Char. rewrite matches_class. split; [eauto|]. intros (c & -> & ->). easy.
  - rewrite (raccepts_one _ "}"%byte) by reflexivity. unfold Char. rewrite matches_class. split; [eauto|]. intros (c & -> & ->). easy.
  - rewrite (raccepts_start _ (fun b => beq b quote)) by reflexivity. unfold Char; rewrite matches_char_seq.
    split; intros (c & v & -> & A & B); exists c, v; (split; [easy|]); (split; [now apply beq_eq|]).
    + apply raccepts_quoted in B. destruct B as (x & d & -> & F & D). apply matches_seq. exists x, [d]. split; [easy|].
      split; [now apply matches_star|now constructor].
    + apply raccepts_quoted. apply matches_seq in B. destruct B as (x & z & -> & X & Z). apply matches_star in X. apply matches_class in Z.
      destruct Z as (d & -> & Z). eauto.
  - rewrite (raccepts_start _ is_letter) by reflexivity. unfold Char; rewrite matches_char_seq.
    split; intros (c & v & -> & A & B); exists c, v; (split; [easy|]); (split; [now apply letter_iff|]).
    + apply (raccepts_loop _ is_word) in B; [|reflexivity|reflexivity]. apply matches_star. eapply Forall_iff; [|exact B]. intros x. apply wordchar_iff.
    + apply (raccepts_loop _ is_word); [reflexivity|reflexivity|]. apply matches_star in B. eapply Forall_iff; [|exact B]. intros x. symmetry. apply wordchar_iff.
  - rewrite (raccepts_start _ is_digit) by reflexivity. unfold Plus. rewrite matches_char_seq.
    split; intros (c & v & -> & A & B); exists c, v; (split; [easy|]); (split; [now apply decimal_iff|]).
    + apply (raccepts_loop _ is_digit) in B; [|reflexivity|reflexivity]. apply matches_star. eapply Forall_iff; [|exact B]. intros x. apply decimal_iff.
    + apply (raccepts_loop _ is_digit); [reflexivity|reflexivity|]. apply matches_star in B. eapply Forall_iff; [|exact B]. intros x. symmetry. apply decimal_iff.
  - rewrite (raccepts_one _ ";"%byte) by reflexivity. unfold Char. rewrite matches_class. split; [eauto|]. intros (c & -> & ->). easy.
Qed.

(** ** The states as sets of rules

    An item is the number of a rule (from 0; 22 is the default rule) and the state of its
    automaton. *)

Notation item := (nat * nat)%type.
Definition numbered (i : nat) : option rule := nth_error rules i.

Definition item_step (b : byte) (x : item) : list item :=
  match rstep (numbered (fst x)) (snd x) b with Some q => [(fst x, q)] | None => [] end.
Definition items_step (l : list item) (b : byte) : list item := flat_map (item_step b) l.
Definition items0 : list item := map (fun i => (i, 0)) (seq 0 23).

Fixpoint first_accepting (l : list item) : Z :=
  match l with
  | [] => 0
  | x :: r => if racc (numbered (fst x)) (snd x) then Z.of_nat (fst x) + 1 else first_accepting r
  end.

Definition item_eqb (a b : item) : bool := (fst a =? fst b) && (snd a =? snd b).
Fixpoint items_eqb (a b : list item) : bool :=
  match a, b with
  | [], [] => true
  | x :: a', y :: b' => item_eqb x y && items_eqb a' b'
  | _, _ => false
  end.

Lemma items_eqb_eq a : forall b, items_eqb a b = true -> a = b.
Proof.
  induction a as [|[x1 x2] a IH]; intros [|[y1 y2] b] H; try discriminate; [easy|]. simpl in H.
  unfold item_eqb in H. simpl in H. rewrite !andb_true_iff, !Nat.eqb_eq in H. destruct H as [[-> ->] H]. f_equal. auto.
Qed.

Fixpoint look (s : Z) (l : list (Z * list item)) : option (list item) :=
  match l with
  | [] => None
  | (s', i) :: r => if (s =? s')%Z then Some i else look s r
  end.

(** The states reachable from the start, with the set each stands for. *)
Fixpoint explore (fuel : nat) (todo seen : list (Z * list item)) : list (Z * list item) :=
  match fuel, todo with
  | S fuel', (s, i) :: rest =>
    let new := fold_left (fun acc b =>
      let s' := delta s b in
      if (s' =? jam)%Z then acc
      else match look s' (acc ++ todo ++ seen) with Some _ => acc | None => (s', items_step i b) :: acc end) all_bytes [] in
    explore fuel' (rest ++ new) ((s, i) :: seen)
  | _, _ => seen
  end.

Definition reachable : list (Z * list item) := Eval vm_compute in explore 200 [(1%Z, items0)] [].

Definition agrees (p : Z * list item) : bool :=
  let '(s, i) := p in
  (accept s =? first_accepting i)%Z &&
  forallb (fun b =>
    let s' := delta s b in
    if (s' =? jam)%Z then match items_step i b with [] => true | _ => false end
    else match look s' reachable with Some i' => items_eqb i' (items_step i b) | None => false end) all_bytes.

Lemma reachable_agree : forallb agrees reachable = true.
Proof. vm_compute. reflexivity. Qed.

Lemma look_in s l i : look s l = Some i -> In (s, i) l.
Proof.
  induction l as [|[s' i'] l IH]; simpl; [discriminate|]. destruct (Z.eqb_spec s s') as [->|]; [|auto].
  intros E. injection E as ->. auto.
Qed.

Definition dstate (u : list byte) : Z := fst (notes 1 None 0 u).
Definition items_after (u : list byte) : list item := fold_left items_step u items0.

Lemma dstate_snoc u b : dstate (u ++ [b]) = delta (dstate u) b.
Proof. unfold dstate. rewrite notes_app. now destruct (notes 1 None 0 u). Qed.

Lemma bisim u : (dstate u = jam /\ items_after u = []) \/ In (dstate u, items_after u) reachable.
Proof.
  induction u as [|b u IH] using rev_ind.
  - right. apply look_in. vm_compute. reflexivity.
  - rewrite dstate_snoc. unfold items_after. rewrite fold_left_app. simpl fold_left. fold (items_after u).
    destruct IH as [[-> ->]|I].
    + left. rewrite delta_jam. auto.
    + pose proof reachable_agree as A. rewrite forallb_forall in A. specialize (A _ I). unfold agrees in A.
      apply andb_true_iff in A. destruct A as [_ A]. rewrite forallb_forall in A. specialize (A b (all_bytes_in b)). cbv beta zeta in A.
      destruct (Z.eqb_spec (delta (dstate u) b) jam) as [->|_].
      * left. destruct (items_step (items_after u) b); [auto|discriminate].
      * right. destruct (look (delta (dstate u) b) reachable) as [i'|] eqn:L; [|discriminate].
        apply items_eqb_eq in A. subst i'. now apply look_in.
Qed.

Lemma accept_items u : accept (dstate u) = first_accepting (items_after u).
Proof.
  destruct (bisim u) as [[-> ->]|I]; [apply accept_jam|].
  pose proof reachable_agree as A. rewrite forallb_forall in A. specialize (A _ I). unfold agrees in A.
  apply andb_true_iff in A. destruct A as [A _]. now apply Z.eqb_eq.
Qed.

Definition item_run (u : list byte) (x : item) : list item :=
  match rrun (numbered (fst x)) (snd x) u with Some q => [(fst x, q)] | None => [] end.

Lemma items_run u : forall l, fold_left items_step u l = flat_map (item_run u) l.
Proof.
  induction u as [|b u IH]; intros l; simpl.
  - induction l as [|[i q] l IHl]; simpl; [easy|]. now rewrite <- IHl.
  - rewrite IH. induction l as [|[i q] l IHl]; simpl; [easy|]. rewrite flat_map_app, IHl. f_equal.
    unfold item_step, item_run. simpl. destruct (rstep (numbered i) q b) as [q'|]; [|easy].
    simpl. unfold item_run. simpl. apply app_nil_r.
Qed.

(** The number of the first rule that matches. *)
Lemma first_accepting_run u l :
  (first_accepting (flat_map (item_run u) l) = 0%Z /\ forall i q, In (i, q) l -> ~ raccepts (numbered i) q u) \/
  (exists l1 i q l2, l = l1 ++ (i, q) :: l2 /\ first_accepting (flat_map (item_run u) l) = (Z.of_nat i + 1)%Z /\
     raccepts (numbered i) q u /\ forall i' q', In (i', q') l1 -> ~ raccepts (numbered i') q' u).
Proof.
  induction l as [|[i q] l IH]; [left; split; [easy|]; intros i q []|].
  assert (D : raccepts (numbered i) q u \/ ~ raccepts (numbered i) q u).
  { unfold raccepts. destruct (rrun (numbered i) q u) as [q'|].
    - destruct (racc (numbered i) q') eqn:A; [left; eauto|right]. intros (x & E & X). congruence.
    - right. intros (x & E & _). discriminate. }
  destruct D as [D|D].
  - right. exists [], i, q, l. split; [easy|]. split; [|split; [easy|intros i' q' []]].
    destruct D as (q' & E & A). cbn [flat_map]. unfold item_run at 1. simpl fst. simpl snd. rewrite E. simpl. now rewrite A.
  - assert (F : first_accepting (flat_map (item_run u) ((i, q) :: l)) = first_accepting (flat_map (item_run u) l)).
    { cbn [flat_map]. unfold item_run at 1. simpl fst. simpl snd. destruct (rrun (numbered i) q u) as [q'|] eqn:E; [|easy].
      simpl. destruct (racc (numbered i) q') eqn:A; [|easy]. exfalso. apply D. exists q'. auto. }
    rewrite F. destruct IH as [[A B]|(l1 & i' & q' & l2 & -> & A & B & C)].
    + left. split; [exact A|]. intros i' q' [X|X]; [injection X as <- <-; exact D|eauto].
    + right. exists ((i, q) :: l1), i', q', l2. split; [easy|]. split; [exact A|]. split; [exact B|].
      intros a b [X|X]; [injection X as <- <-; exact D|eauto].
Qed.

Lemma raccepts_default u : raccepts None 0 u <-> length u = 1.
Proof.
  destruct u as [|b u].
  - rewrite raccepts_nil. split; discriminate.
  - rewrite raccepts_cons. simpl. split.
    + intros (q & E & H). injection E as <-. destruct u as [|c u]; [easy|]. apply raccepts_cons in H.
      destruct H as (q & H & _). discriminate.
    + intros H. exists 1. split; [easy|]. destruct u; [|discriminate]. now apply raccepts_nil.
Qed.

(** What the acceptance of a text by the generated automaton means. *)
Definition first_rule (u : list byte) (r : rule) : Prop :=
  exists before after, rules = before ++ r :: after /\ matches (rule_regex r) u /\
    forall r', In r' before -> ~ matches (rule_regex r') u.

Lemma items0_split l1 i q l2 : items0 = l1 ++ (i, q) :: l2 -> q = 0 /\ i = length l1 /\ i <= 22 /\ l1 = map (fun i => (i, 0)) (seq 0 i).
Proof.
  intros E. unfold items0 in E. assert (L : length l1 < 23).
  { assert (X : length (map (fun i => (i, 0)) (seq 0 23)) = length (l1 ++ (i, q) :: l2)) by now rewrite E.
    rewrite map_length, seq_length, app_length in X. simpl in X. lia. }
  assert (N : nth_error (map (fun i => (i, 0)) (seq 0 23)) (length l1) = Some (i, q)).
  { rewrite E, nth_error_app2, Nat.sub_diag by lia. reflexivity. }
  rewrite nth_error_map in N. rewrite (nth_error_nth' _ 0) in N by (rewrite seq_length; lia). rewrite seq_nth in N by lia.
  simpl in N. injection N as <- <-. split; [easy|]. split; [easy|]. split; [lia|].
  assert (F : firstn (length l1) (map (fun i => (i, 0)) (seq 0 23)) = l1) by (rewrite E; apply app_firstn).
  rewrite <- F at 1. rewrite firstn_map. f_equal.
  replace 23 with (length l1 + (23 - length l1)) by lia. rewrite seq_app.
  rewrite firstn_app, seq_length, Nat.sub_diag, app_nil_r. rewrite <- (seq_length (length l1) 0) at 1. apply firstn_all.
Qed.

Lemma accept_rule u :
  (accept (dstate u) = 0%Z /\ (forall r, ~ matches (rule_regex r) u) /\ length u <> 1) \/
  (accept (dstate u) = 23%Z /\ (forall r, ~ matches (rule_regex r) u) /\ length u = 1) \/
  (exists r, act_rule (accept (dstate u)) = Some r /\ (1 <= accept (dstate u) <= 22)%Z /\ first_rule u r).
Proof.
  rewrite accept_items. unfold items_after. rewrite items_run.
  assert (ALL : forall i, i < 23 -> forall P : Prop, (In (i, 0) items0 -> P) -> P).
  { intros i L P H. apply H. apply in_map_iff. exists i. split; [easy|]. apply in_seq. lia. }
  assert (NUM : forall r, exists i, i < 22 /\ numbered i = Some r).
  { intros r. assert (I : In r rules) by (destruct r as [| | |[]| | | | | |]; simpl; tauto).
    apply In_nth_error in I. destruct I as (i & I). exists i. split; [|exact I].
    assert (L : i < length rules) by (apply nth_error_Some; congruence). exact L. }
  destruct (first_accepting_run u items0) as [[-> H]|(l1 & i & q & l2 & E & -> & A & B)].
  - left. split; [easy|]. split.
    + intros r M. apply raccepts_matches in M. destruct (NUM r) as (i & L & N). rewrite <- N in M.
      revert M. apply H. apply in_map_iff. exists i. split; [easy|]. apply in_seq. lia.
    + intros L. apply raccepts_default in L. revert L. apply (H 22). apply in_map_iff. exists 22. split; [easy|]. apply in_seq. lia.
  - destruct (items0_split _ _ _ _ E) as (-> & I & L & El).
    assert (BEF : forall i', i' < i -> ~ raccepts (numbered i') 0 u).
    { intros i' L'. apply B. rewrite El. apply in_map_iff. exists i'. split; [easy|]. apply in_seq. lia. }
    destruct (Nat.eq_dec i 22) as [->|N22].
    + right; left. split; [easy|]. change (numbered 22) with (@None rule) in A. split; [|now apply raccepts_default].
      intros r M. apply raccepts_matches in M. destruct (NUM r) as (i' & L' & N). rewrite <- N in M. revert M. now apply BEF.
    + right; right. destruct (numbered i) as [r|] eqn:N.
      2: { apply nth_error_None in N. change (length rules) with 22 in N. lia. }
      exists r. split; [|split; [lia|]].
      * unfold act_rule. replace (Z.to_nat (Z.of_nat i + 1 - 1)) with i by lia. exact N.
      * apply nth_error_split in N. destruct N as (bef & aft & Er & Lb). exists bef, aft. split; [exact Er|].
        split; [now apply raccepts_matches|]. intros r' I' M. apply In_nth_error in I'. destruct I' as (i' & I').
        assert (L' : i' < length bef) by (apply nth_error_Some; congruence).
        apply raccepts_matches in M. revert M. replace (Some r') with (numbered i'); [apply BEF; lia|].
        unfold numbered. rewrite Er, nth_error_app1 by exact L'. exact I'.
Qed.

(** ** The longest match *)

Lemma notes_longest u : forall st n, snd (notes 1 None 0 u) = Some (st, n) ->
  n < length u /\ st = dstate (firstn n u) /\ accept st <> 0%Z /\
  forall m, n < m < length u -> accept (dstate (firstn m u)) = 0%Z.
Proof.
  induction u as [|b u IH] using rev_ind; intros st n H; [discriminate|].
  rewrite notes_app in H. unfold dstate in IH |- *. fold (dstate u) in *. rewrite app_length. simpl length.
  assert (D : dstate u = fst (notes 1 None 0 u)) by reflexivity.
  destruct (notes 1 None 0 u) as [s last] eqn:N. simpl in D. cbn [notes snd] in H.
  destruct (Z.eqb_spec (accept s) 0) as [A|A].
  - destruct (IH _ _ H) as (L & E & B & C). split; [lia|].
    assert (F : forall m, m <= length u -> firstn m (u ++ [b]) = firstn m u).
    { intros m Lm. rewrite firstn_app. replace (m - length u) with 0 by lia. now rewrite app_nil_r. }
    rewrite F by lia. split; [exact E|]. split; [exact B|]. intros m Lm. rewrite F by lia.
    destruct (Nat.eq_dec m (length u)) as [->|]; [|apply C; lia]. rewrite firstn_all, N. exact A.
  - injection H as <- <-. simpl. split; [lia|]. rewrite app_firstn, N. split; [easy|]. split; [exact A|]. intros m Lm. lia.
Qed.

Lemma answer_longest u st n : answer u = Some (st, n) ->
  n <= length u /\ st = dstate (firstn n u) /\ accept st <> 0%Z /\
  forall m, n < m <= length u -> accept (dstate (firstn m u)) = 0%Z.
Proof.
  unfold answer. intros H. pose proof (notes_longest u) as L. unfold dstate in L |- *.
  destruct (notes 1 None 0 u) as [s last] eqn:N. simpl in L. destruct (Z.eqb_spec (accept s) 0) as [A|A].
  - destruct (L _ _ H) as (B & E & C & D). split; [lia|]. split; [exact E|]. split; [exact C|].
    intros m Lm. destruct (Nat.eq_dec m (length u)) as [->|]; [|apply D; lia]. rewrite firstn_all, N. exact A.
  - injection H as <- <-. split; [lia|]. rewrite firstn_all, N. split; [easy|]. split; [exact A|]. intros m Lm. lia.
Qed.

Lemma in_rules r : In r rules.
Proof. destruct r as [| | |[]| | | | | |]; simpl; tauto. Qed.

(** What is found at the beginning of an input. *)
Theorem answer_munch u st n : answer u = Some (st, n) -> 1 <= n ->
  (exists r, act_rule (accept st) = Some r /\ munch u (firstn n u) (skipn n u) r) \/
  (act_rule (accept st) = None /\ n = 1 /\ stray u).
Proof.
  intros H P. destruct (answer_longest _ _ _ H) as (L & -> & A & M).
  assert (LONG : forall s' rest' r, u = s' ++ rest' -> matches (rule_regex r) s' -> length s' <= n).
  { intros s' rest' r E X. destruct (Nat.le_gt_cases (length s') n) as [|G]; [assumption|exfalso].
    assert (Lu : length s' <= length u) by (rewrite E, app_length; lia).
    specialize (M (length s') (conj G Lu)). rewrite E, app_firstn in M.
    destruct (accept_rule s') as [(_ & B & _)|[(B & _)|(r' & _ & B & _)]]; [now apply (B r)|congruence|lia]. }
  assert (LF : length (firstn n u) = n) by (rewrite firstn_length; lia).
  destruct (accept_rule (firstn n u)) as [(B & _)|[(B & C & D)|(r & B & _ & bef & aft & Er & X & Y)]]; [congruence| |].
  - right. rewrite B. split; [reflexivity|]. assert (n1 : n = 1) by lia. split; [exact n1|].
    intros s' rest' re' r' E I NE X. apply in_flex in I. destruct I as [-> I]. apply (C r').
    assert (L1 : length s' = n) by (specialize (LONG _ _ _ E X); destruct s'; [easy|simpl in *; lia]).
    rewrite E, <- L1, app_firstn. exact X.
  - left. exists r. split; [exact B|]. split; [symmetry; apply firstn_skipn|].
    split; [intros E; rewrite E in LF; simpl in LF; lia|]. split.
    + exists (map (fun r => (rule_regex r, r)) bef), (rule_regex r), (map (fun r => (rule_regex r, r)) aft).
      split; [rewrite flex_rules_are, Er, map_app; reflexivity|]. split; [exact X|].
      intros re' r' I. apply in_map_iff in I. destruct I as (x & Ex & I). injection Ex as <- <-. now apply Y.
    + intros s' rest' re' r' E I Z. apply in_flex in I. destruct I as [-> I]. rewrite LF. now apply (LONG s' rest' r').
Qed.

(** ** A round of the generated scanner *)

Theorem round_lex reads y : reads_ok reads -> sound y -> small y ->
  match input y with
  | [] => exists size, (1 <= size)%Z /\ yy_round reads y = Ok (M_eof, yy_flushed size [])
  | _ :: _ => exists act text y', yy_round reads y = Ok (M_rule act text, y') /\
      sound y' /\ small y' /\ length (input y') < length (input y) /\
      lex_round (input y) = do l <- yy_action act text; Ok (l, input y')
  end.
Proof.
  intros R S M. destruct (round_result reads y R S M) as [[E (size & B & ->)]|[NE (st & n & y' & A & B & _ & _ & -> & S' & I')]].
  - rewrite E. exists size. auto.
  - destruct (input y) as [|c r] eqn:I; [easy|]. rewrite <- I in *. exists (accept st), (firstn n (input y)), y'.
    split; [reflexivity|]. split; [exact S'|].
    assert (L : length (input y') < length (input y)) by (rewrite I', skipn_length; lia).
    split; [unfold small in *; lia|]. split; [exact L|]. unfold yy_action, lex_round.
    destruct (answer_munch _ _ _ A (proj1 B)) as [(rl & -> & Mu)|(-> & -> & St)].
    + rewrite (munch_best _ _ _ _ Mu). rewrite firstn_length, Nat.min_l by lia. now rewrite I'.
    + rewrite (stray_best _ St). rewrite I', I. reflexivity.
Qed.
