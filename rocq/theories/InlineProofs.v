(** * Proofs about inline mode *)

From Verif Require Import Base BaseFacts Stdio StdioFacts CleanSpec CleanUtf8 Utf8Spec CleanUtf8Proofs Filter Prog ProgFacts File Inline InlineSpec Warnings WarningsProofs.

Local Open Scope nat_scope.

(** ** fgets *)

Lemma fgets_next input : input <> [] -> exists b r, fgets_bytes 1007 input = (b, r) /\ next_read input b r.
Proof.
  intros N. destruct (fgets_bytes 1007 input) as [b r] eqn:E. exists b, r. split; auto.
  destruct (fgets_bytes_spec _ _ _ _ E) as (-> & L & H).
  assert (B : b <> []).
  { intros ->. destruct H as [(t & X & _)|[_ [X| ->]]]; [now destruct t|discriminate|now apply N]. }
  unfold next_read. splits; auto.
Qed.

(** [next_read] determines what fgets delivers. *)
Lemma next_fgets input b r : next_read input b r -> fgets_bytes 1007 input = (b, r).
Proof.
  intros (-> & B & L & [(t & -> & N)|[N [F| ->]]]).
  - rewrite <- app_assoc. cbn [app]. apply fgets_line; auto. rewrite app_length in L. simpl in L. lia.
  - rewrite <- F. now apply fgets_full.
  - rewrite app_nil_r. now apply fgets_last.
Qed.

Lemma fgets_ok input b r : next_read input b r ->
  fgets (INLINE_BUF_SIZE - INLINE_BUF_PADDING) input = Ok (Some (b, r)).
Proof.
  intros H. pose proof (next_fgets _ _ _ H) as E. destruct H as (-> & B & L & _).
  unfold fgets. change (INLINE_BUF_SIZE - INLINE_BUF_PADDING - 1) with 1007. rewrite E.
  replace (length b <? INLINE_BUF_SIZE) with true.
  - destruct b; [contradiction|reflexivity].
  - symmetry. apply Nat.ltb_lt. unfold INLINE_BUF_SIZE. lia.
Qed.

(** ** Newlines *)

Lemma strrchr_none s : ~ In newline s -> strrchr_newline s = None.
Proof.
  induction s as [|c s IH]; intros N; simpl; auto.
  rewrite IH by (intros X; apply N; now right).
  destruct (beq c newline) eqn:E; auto. apply beq_eq in E. subst. exfalso. apply N. now left.
Qed.

Lemma strrchr_some s : strrchr_newline s = None -> ~ In newline s.
Proof.
  induction s as [|c s IH]; simpl; auto.
  destruct (strrchr_newline s); [discriminate|].
  destruct (beq c newline) eqn:E; [discriminate|]. apply beq_neq in E. intros _ [X|X]; auto. now apply IH.
Qed.

Lemma strrchr_last t : strrchr_newline (t ++ [newline]) = Some t.
Proof. induction t as [|c t IH]; simpl; auto. now rewrite IH. Qed.

(** ** Completing a character *)

Lemma seek_back_spec limit : forall before after,
  match seek_back limit before after with
  | UB w => w = BufferUnderread /\ length before <= limit /\ Forall continuation before
  | Ok (c, after') => exists conts b, before = conts ++ c :: b /\ after' = rev conts ++ after /\
      length conts <= limit /\ Forall continuation conts /\ (continuation c -> length conts = limit)
  | Exit _ => False
  end.
Proof.
  induction limit as [|limit IH]; intros [|c before] after; simpl; rewrite ?is_cont.
  - splits; auto.
  - destruct (contb c); exists [], before; splits; auto.
  - splits; auto. lia.
  - destruct (contb c) eqn:Ec.
    + apply contb_iff in Ec. specialize (IH before (c :: after)).
      destruct (seek_back limit before (c :: after)) as [[d after']|w|]; auto.
      * destruct IH as (conts & b & -> & -> & L & F & M). exists (c :: conts), b. splits; auto.
        -- simpl. now rewrite <- app_assoc.
        -- simpl. lia.
        -- intros X. simpl. rewrite M; auto.
      * destruct IH as (-> & L & F). splits; auto. lia.
    + exists [], before. splits; auto; simpl; try lia. intros X. apply contb_iff in X. congruence.
Qed.

Lemma seek_back_ok limit conts c b after :
  Forall continuation conts -> ~ continuation c -> length conts <= limit ->
  seek_back limit (conts ++ c :: b) after = Ok (c, rev conts ++ after).
Proof.
  revert limit after. induction conts as [|d conts IH]; intros limit after F C L.
  - destruct limit; simpl; rewrite is_cont; (destruct (contb c) eqn:E; [apply contb_iff in E; contradiction|]); reflexivity.
  - destruct limit; simpl in L; [lia|]. simpl. rewrite is_cont. inversion F; subst.
    rewrite (proj2 (contb_iff d)) by assumption. rewrite IH; auto; [|lia]. now rewrite <- app_assoc.
Qed.

Lemma seek_ahead_all n : forall conts, Forall continuation conts -> length conts <= n ->
  seek_ahead n conts = (n - length conts, []).
Proof.
  induction n as [|n IH]; intros [|c conts] F L; simpl in *; auto; try lia.
  rewrite is_cont. inversion F; subst. rewrite (proj2 (contb_iff c)) by assumption. apply IH; auto. lia.
Qed.

(** [bring_in] only takes bytes over. *)
Lemma bring_in_spec schar n : forall base input, length base + n < INLINE_BUF_SIZE ->
  exists add rest w, bring_in schar n base input = Ok (base ++ add, rest, w) /\ input = add ++ rest /\
    length add <= n /\ ~ In newline add /\ ~ In NUL add.
Proof.
  assert (P : forall base, length base < INLINE_BUF_SIZE -> poke base = Ok tt).
  { intros base L. unfold poke. now rewrite (proj2 (Nat.ltb_lt _ _) L). }
  induction n as [|n IH]; intros base input L; simpl.
  { rewrite P by lia. exists [], input, false. rewrite app_nil_r. splits; auto. }
  destruct input as [|c rest].
  { rewrite P by lia. exists [], [], false. rewrite app_nil_r. splits; auto. simpl. lia. }
  rewrite P by lia. simpl bind. rewrite is_cont. destruct (contb c) eqn:Ec.
  - destruct (IH (base ++ [c]) rest) as (add & rest' & w & E & -> & La & Na & Nu).
    { rewrite app_length. simpl. lia. }
    exists (c :: add), rest', w. rewrite E, <- app_assoc. apply contb_iff in Ec. unfold continuation in Ec.
    splits; auto; simpl; try lia.
    + intros [X|X]; auto. subst c. vm_compute in Ec. destruct Ec. congruence.
    + intros [X|X]; auto. subst c. vm_compute in Ec. destruct Ec. congruence.
  - destruct (schar && beq c xff)%bool eqn:Ew.
    + apply andb_true_iff in Ew. destruct Ew as [_ Ew]. apply beq_eq in Ew. subst c.
      rewrite P by (rewrite app_length; simpl; lia).
      exists [xff], rest, true. splits; auto; simpl; try lia; intros [X|[]]; discriminate.
    + exists [], (c :: rest), false. rewrite app_nil_r. splits; auto. simpl. lia.
Qed.

Lemma bring_in_exact schar : forall missing base rest n,
  Forall continuation missing -> length missing = n -> length base + n < INLINE_BUF_SIZE ->
  bring_in schar n base (missing ++ rest) = Ok (base ++ missing, rest, false).
Proof.
  assert (P : forall base, length base < INLINE_BUF_SIZE -> poke base = Ok tt).
  { intros base L. unfold poke. now rewrite (proj2 (Nat.ltb_lt _ _) L). }
  induction missing as [|c missing IH]; intros base rest n F <- L; simpl.
  - simpl in L. rewrite P by lia. now rewrite app_nil_r.
  - simpl in L. rewrite P by lia. simpl bind. inversion F; subst. rewrite is_cont, (proj2 (contb_iff c)) by assumption.
    rewrite IH; auto.
    + now rewrite <- app_assoc.
    + rewrite app_length. simpl. lia.
Qed.

Lemma is_start_width c : is_utf_8_start c = true <-> (0xC0 <= bN c)%N.
Proof.
  assert (H : Bool.eqb (is_utf_8_start c) (0xC0 <=? bN c)%N = true).
  { revert c. apply byte_sweep. vm_compute. reflexivity. }
  apply eqb_prop in H. rewrite H. apply N.leb_le.
Qed.

Lemma width_bound c w : seq_width c = Some w -> 1 <= w <= 6.
Proof.
  unfold seq_width. intros H.
  repeat match type of H with context [if ?b then _ else _] => destruct b end; try discriminate; injection H as <-; lia.
Qed.

Lemma complete_spec schar base input : length base <= 1007 ->
  (only_continuation base -> complete schar base input = UB BufferUnderread) /\
  (~ only_continuation base -> exists add rest w,
     complete schar base input = Ok (base ++ add, rest, w) /\ input = add ++ rest /\ length add <= 5 /\
     ~ In newline add /\ ~ In NUL add).
Proof.
  intros Lb. unfold complete. change (UTF_8_MAX_LENGTH - 1) with 5.
  pose proof (seek_back_spec 5 (rev base) []) as S.
  destruct (seek_back 5 (rev base) []) as [[c after]|w|] eqn:E; [| |destruct S].
  - destruct S as (conts & b & R & -> & Lc & Fc & M). rewrite app_nil_r in *.
    split.
    + intros [L F]. exfalso. rewrite <- (rev_involutive base), R, rev_length, app_length in L. simpl in L.
      assert (C : continuation c).
      { rewrite Forall_forall in F. apply F. rewrite in_rev, R. apply in_or_app. right. now left. }
      specialize (M C). lia.
    + intros _. simpl bind. cbv beta iota.
      assert (K : exists add rest w, Ok (base, input, false) = Ok (base ++ add, rest, w) /\ input = add ++ rest /\
        length add <= 5 /\ ~ In newline add /\ ~ In NUL add).
      { exists [], input, false. rewrite app_nil_r. splits; auto. simpl. lia. }
      destruct (is_utf_8_start c) eqn:Es; auto.
      destruct (get_utf_8_width c) as [w|] eqn:W; auto. rewrite width_spec in W. apply width_bound in W.
      destruct (seek_ahead (w - 1) (rev conts)) as [[|m] [|x l]] eqn:SA; auto.
      assert (m <= 4).
      { assert (H : forall n l k r, seek_ahead n l = (k, r) -> k <= n).
        { intros n. induction n as [|n IH]; intros [|y l] k r X; simpl in X; try (injection X as <- <-; lia).
          destruct (is_utf_8_cont y); [apply IH in X; lia|injection X as <- <-; lia]. }
        apply H in SA. lia. }
      destruct (bring_in_spec schar (S m) base input) as (add & rest & wn & E2 & -> & La & Na & Nu).
      { unfold INLINE_BUF_SIZE. lia. }
      exists add, rest, wn. splits; auto. lia.
  - destruct S as (-> & L & F). rewrite rev_length in L.
    assert (F' : Forall continuation base).
    { rewrite Forall_forall in *. intros x X. apply F. now rewrite <- in_rev. }
    split; auto. intros N. exfalso. apply N. split; [lia|auto].
Qed.

(** ** One piece *)

Lemma read_piece_end schar : read_piece schar [] = Ok None.
Proof. reflexivity. Qed.

Lemma read_line schar input t rest : next_read input (t ++ [newline]) rest -> nonul t ->
  read_piece schar input = Ok (Some (mkPiece t true false rest)).
Proof.
  intros N U. unfold read_piece. rewrite (fgets_ok _ _ _ N). cbn [bind].
  assert (Z : nonul (t ++ [newline])) by (apply nonul_app; split; auto; intros [X|[]]; discriminate).
  rewrite (cstr_nonul _ Z), strrchr_last. simpl. now rewrite strrchr_last.
Qed.

Lemma read_part schar input b rest : next_read input b rest -> ~ In newline (cstr b) -> ~ only_continuation (cstr b) ->
  exists add rest' w, rest = add ++ rest' /\ ~ In newline add /\ ~ In NUL add /\
    read_piece schar input = Ok (Some (mkPiece (cstr b ++ add) false w rest')) /\
    complete schar (cstr b) rest = Ok (cstr b ++ add, rest', w).
Proof.
  intros N NL C. unfold read_piece. rewrite (fgets_ok _ _ _ N). cbn [bind].
  rewrite (strrchr_none _ NL).
  destruct (complete_spec schar (cstr b) rest) as [_ H].
  { destruct N as (_ & _ & L & _). pose proof (cstr_length b). lia. }
  destruct (H C) as (add & rest' & w & E & -> & La & Na & Nu). rewrite E. cbn [bind].
  exists add, rest', w. rewrite strrchr_none; [splits; auto|].
  intros X. apply in_app_or in X. tauto.
Qed.

Lemma read_bad schar input b rest : next_read input b rest -> ~ In newline (cstr b) -> only_continuation (cstr b) ->
  read_piece schar input = UB BufferUnderread.
Proof.
  intros N NL C. unfold read_piece. rewrite (fgets_ok _ _ _ N). cbn [bind].
  rewrite (strrchr_none _ NL).
  destruct (complete_spec schar (cstr b) rest) as [H _].
  { destruct N as (_ & _ & L & _). pose proof (cstr_length b). lia. }
  now rewrite (H C).
Qed.

Lemma cstr_newline b : In newline (cstr b) -> exists t, b = t ++ [newline] /\ nonul t \/ (exists r, b <> [] /\ b = t ++ [newline] ++ r /\ nonul t).
Proof.
  intros X. apply in_split in X. destruct X as (a & c & E).
  destruct (cstr_prefix b) as (d & D). exists a. right. exists (c ++ d).
  assert (nonul a).
  { pose proof (nonul_cstr b) as Z. rewrite E in Z. apply nonul_app in Z. tauto. }
  rewrite D, E, <- app_assoc. simpl. splits; auto. now destruct a.
Qed.

Lemma only_continuation_dec b : {only_continuation b} + {~ only_continuation b}.
Proof.
  unfold only_continuation. destruct (lt_dec (length b) 6); [|right; tauto].
  destruct (Forall_dec continuation (fun c => match contb c as x return contb c = x -> _ with
     | true => fun H => left (proj1 (contb_iff c) H)
     | false => fun H => right (fun C => eq_ind false (fun x => if x then False else True) I true
                   (eq_trans (eq_sym H) (proj2 (contb_iff c) C))) end eq_refl) b); tauto.
Qed.

(** Every case of reading. *)
Lemma read_piece_cases schar input : input <> [] ->
  exists b rest, next_read input b rest /\
   ((exists t, cstr b = t ++ [newline] /\ b = t ++ [newline] /\ ~ In newline t /\ nonul t /\
       read_piece schar input = Ok (Some (mkPiece t true false rest))) \/
    (~ In newline (cstr b) /\ only_continuation (cstr b) /\ read_piece schar input = UB BufferUnderread) \/
    (~ In newline (cstr b) /\ ~ only_continuation (cstr b) /\ exists add rest' w,
       rest = add ++ rest' /\ ~ In newline add /\ ~ In NUL add /\
       read_piece schar input = Ok (Some (mkPiece (cstr b ++ add) false w rest')))).
Proof.
  intros NE. destruct (fgets_next input NE) as (b & rest & _ & N). exists b, rest. split; auto.
  destruct (in_dec byte_dec newline (cstr b)) as [X|X].
  - left. destruct N as (E & B & L & [(t & -> & Nt)|[Nb _]]).
    2:{ exfalso. apply Nb. destruct (cstr_prefix b) as (d & D). rewrite D. apply in_or_app. auto. }
    assert (U : nonul t).
    { intros U. apply in_split in U. destruct U as (a1 & a2 & ->).
      assert (H : cstr ((a1 ++ NUL :: a2) ++ [newline]) = cstr a1).
      { rewrite <- app_assoc. clear. induction a1 as [|c a1 IH]; [reflexivity|]. simpl.
        destruct (beq c NUL); auto. f_equal. exact IH. }
      rewrite H in X. apply Nt. destruct (cstr_prefix a1) as (d & D). rewrite D. apply in_or_app. left.
      apply in_or_app. auto. }
    assert (Z : nonul (t ++ [newline])) by (apply nonul_app; split; auto; intros [Y|[]]; discriminate).
    exists t. splits; auto.
    + now rewrite (cstr_nonul _ Z).
    + eapply read_line; eauto. unfold next_read. splits; auto. left. eauto.
  - right. destruct (only_continuation_dec (cstr b)) as [C|C].
    + left. splits; auto. eapply read_bad; eauto.
    + right. splits; auto. destruct (read_part schar _ _ _ N X C) as (add & rest' & w & H1 & H2 & H3 & H4 & _).
      exists add, rest', w. auto.
Qed.

Lemma read_piece_shrinks schar input p : read_piece schar input = Ok (Some p) -> length (pc_rest p) < length input.
Proof.
  intros E. assert (NE : input <> []) by (intros ->; discriminate).
  destruct (read_piece_cases schar input NE) as (b & rest & (-> & B & _) & H).
  rewrite app_length. assert (0 < length b) by (destruct b; [contradiction|simpl; lia]).
  destruct H as [(t & _ & _ & _ & _ & H)|[(_ & _ & H)|(_ & _ & add & rest' & w & -> & _ & _ & H)]];
    rewrite H in E; try discriminate; injection E as <-; simpl; [lia|]. rewrite app_length. lia.
Qed.

(** ** Programs that only print *)

Definition delivers (fin p : prog unit) (out : str) : Prop :=
  forall tr p', trace_of p tr p' ->
    (exists more, out = stdout_text tr ++ more) /\
    match p' with
    | Call c _ => exists where_ text, c = Print where_ text
    | _ => p' = fin /\ stdout_text tr = out
    end.

Lemma delivers_ret : delivers (Ret tt) (Ret tt) [].
Proof. intros tr p' R. simpl in R. destruct R as [(-> & _ & ->)|[]]. simpl. splits; eauto. Qed.

Lemma delivers_stop w : delivers (Stop w) (Stop w) [].
Proof. intros tr p' R. simpl in R. destruct R as [(-> & _ & ->)|[]]. simpl. splits; eauto. Qed.

Lemma delivers_print fin w t k out : (delivers fin (k tt) out) -> delivers fin (Call (Print w t) k) (match w with Stdout => t | Stderr => [] end ++ out).
Proof.
  intros D tr p' R. unfold trace_of in R. simpl in R.
  destruct R as [(-> & _ & ->)|([] & [] & [] & tr' & _ & _ & -> & R)].
  - split; [exists (match w with Stdout => t | Stderr => [] end ++ out); reflexivity|]. eauto.
  - destruct (D _ _ R) as [(more & Em) H].
    assert (Es : stdout_text (Ev (Print w t) tt :: tr') = match w with Stdout => t | Stderr => [] end ++ stdout_text tr')
      by (now destruct w).
    split.
    + exists more. rewrite Es, Em. now rewrite <- app_assoc.
    + rewrite Es. destruct p'; auto; destruct H as [-> <-]; auto.
Qed.

Lemma delivers_told fin l p out : on_stderr l -> delivers fin p out -> delivers fin (told l p) out.
Proof.
  intros L D. induction L as [|[w text] l E L IH]; [exact D|]. simpl in E. subst w.
  exact (delivers_print fin Stderr text (fun _ => told l p) out IH).
Qed.

Lemma delivers_piece fin fuel o input p r out :
  read_piece (p_schar (o_platform o)) input = Ok (Some p) -> cleans_to o (pc_text p) r ->
  delivers fin (inline_loop fuel o (pc_rest p)) out ->
  delivers fin (inline_loop (S fuel) o input) (r ++ (if pc_newline p then [newline] else []) ++ out).
Proof.
  intros E C D. cbn [inline_loop]. rewrite E. cbn [lift pbind].
  assert (K : lift (sequence_run_filters (o_platform o) (o_sequence_to_use o)
                (if is_protected (pc_text p) then None else Some (pc_text p))) =
              Ret (if is_protected (pc_text p) then None else Some r)).
  { unfold is_protected. destruct C as [(P & -> & S)|(P1 & P2 & S)].
    - assert ((str_eqb (pc_text p) (bs ".") || str_eqb (pc_text p) (bs ".."))%bool = true) as ->.
      { apply orb_true_iff. destruct P as [-> | ->]; [left|right]; apply str_eqb_eq; reflexivity. }
      destruct (o_sequence_to_use o); [reflexivity|contradiction].
    - apply str_eqb_neq in P1, P2. rewrite P1, P2. simpl. now rewrite S. }
  assert (T : match (if is_protected (pc_text p) then None else Some r) with Some w => w | None => pc_text p end = r).
  { unfold is_protected. destruct C as [(P & -> & S)|(P1 & P2 & S)].
    - now destruct (str_eqb (pc_text p) (bs ".") || str_eqb (pc_text p) (bs ".."))%bool.
    - apply str_eqb_neq in P1, P2. rewrite P1, P2. reflexivity. }
  assert (M : delivers fin (let! _ := print Stdout r in
       (let! _ := (if pc_newline p then print Stdout [newline] else Ret tt) in inline_loop fuel o (pc_rest p)))
       (r ++ (if pc_newline p then [newline] else []) ++ out)).
  { apply (delivers_print fin Stdout r). destruct (pc_newline p); [apply (delivers_print fin Stdout [newline])|]; exact D. }
  rewrite talking_sequence, K, told_bind. cbn [pbind]. rewrite T.
  apply (delivers_told fin (fst (sequence_run_says (o_platform o) (o_sequence_to_use o)
    (if is_protected (pc_text p) then None else Some (pc_text p)))) _ _ (sequence_stderr _ _ _)) in M.
  destruct (pc_warning p); cbn [pbind print]; auto.
  apply (delivers_print fin Stderr (bs "detox: warning: stream push back failed" ++ [newline]) _ _ M).
Qed.

Lemma delivers_end fuel o : delivers (Ret tt) (inline_loop (S fuel) o []) [].
Proof. apply delivers_ret. Qed.

Lemma delivers_result f o contents out fin :
  delivers fin (inline_loop (S (length contents)) o contents) out -> inline_result f o contents out fin.
Proof.
  intros D tr p' R. unfold trace_of in R. simpl runs in R.
  destruct R as [(E & _)|(s0 & r & s1 & tr' & _ & _ & E & R)]; [discriminate|].
  assert (Er : r = inl contents).
  { apply (f_equal (hd (Ev (ReadStream f) r))) in E. simpl in E.
    assert (X : forall a b : answer (ReadStream f), Ev (ReadStream f) a = Ev (ReadStream f) b -> a = b).
    { intros a b H. change (match Ev (ReadStream f) b with Ev (ReadStream g) b => a = b | _ => True end).
      now rewrite <- H. }
    now apply X in E. }
  apply (f_equal (@tl event)) in E. simpl in E. subst r tr'. apply D. destruct s1. exact R.
Qed.

(** With more fuel than bytes nothing changes. *)
Lemma inline_fuel o : forall n m input, length input < n -> length input < m -> inline_loop n o input = inline_loop m o input.
Proof.
  induction n as [|n IH]; intros m input Ln Lm; [lia|]. destruct m as [|m]; [lia|].
  cbn [inline_loop].
  destruct (read_piece (p_schar (o_platform o)) input) as [[p|]|w|c] eqn:E; auto.
  apply read_piece_shrinks in E. cbn [lift pbind]. rewrite (IH m) by lia. reflexivity.
Qed.

(** ** Short lines (C30) *)

Lemma short_lines o : forall fin ls rs n input out, Forall line_text ls -> Forall (fun l => length l <= 1006) ls ->
  Forall2 (cleans_to o) ls rs -> length (concat (map ended ls) ++ input) < n ->
  (forall m, length input < m -> delivers fin (inline_loop m o input) out) ->
  delivers fin (inline_loop n o (concat (map ended ls) ++ input)) (concat (map ended rs) ++ out).
Proof.
  intros fin ls rs n input out T L F. revert n T L. induction F as [|l r ls rs C F IH]; intros n T L N K; simpl.
  - now apply K.
  - inversion T as [|? ? [U NL] T']; subst. inversion L as [|? ? Ll L']; subst.
    simpl in N. destruct n as [|n]; [lia|].
    unfold ended at 1 3. rewrite <- !app_assoc. simpl.
    assert (R : read_piece (p_schar (o_platform o)) (l ++ newline :: concat (map ended ls) ++ input) =
                Ok (Some (mkPiece l true false (concat (map ended ls) ++ input)))).
    { eapply read_line; auto. unfold next_read. splits.
      - rewrite <- app_assoc. reflexivity.
      - now destruct l.
      - rewrite app_length. simpl. lia.
      - left. eauto. }
    pose proof (delivers_piece fin n o _ _ r (concat (map ended rs) ++ out) R C) as D. cbn [pc_rest pc_newline app] in D. apply D.
    apply IH; auto. clear D R. rewrite !app_length in *.
    assert (0 < length (ended l)) by (unfold ended; rewrite app_length; simpl; lia). lia.
Qed.

Lemma last_line o l r m : line_text l -> length l <= 1007 -> l <> [] -> ~ only_continuation l -> cleans_to o l r ->
  length l < m -> delivers (Ret tt) (inline_loop m o l) r.
Proof.
  intros [U NL] L NE C CL Lm. destruct m as [|m]; [lia|].
  assert (N : next_read l l []).
  { unfold next_read. rewrite app_nil_r. splits; auto. }
  destruct (read_part (p_schar (o_platform o)) _ _ _ N) as (add & rest' & w & E & _ & _ & R & _);
    rewrite (cstr_nonul _ U) in *; auto.
  symmetry in E. apply app_eq_nil in E. destruct E as [-> ->]. rewrite app_nil_r in R.
  assert (Ro : r = r ++ [] ++ []) by (now rewrite app_nil_r). rewrite Ro.
  eapply (delivers_piece (Ret tt) m o _ _ r []) in R; simpl; eauto.
  simpl. destruct m; [destruct l; [contradiction|simpl in Lm; lia]|]. apply delivers_end.
Qed.

(** ** Cutting long lines (C31, C52) *)

Lemma valid_utf8_app a b : valid_utf8 a -> valid_utf8 b -> valid_utf8 (a ++ b).
Proof.
  intros (x & Fx & ->) (y & Fy & ->). exists (x ++ y). split; [now apply Forall_app|]. now rewrite flat_map_app.
Qed.

Lemma valid_utf8_nil : valid_utf8 [].
Proof. exists []. auto. Qed.

Lemma valid_utf8_encode cp : scalar cp -> valid_utf8 (encode cp).
Proof. intros H. exists [cp]. split; auto. simpl. now rewrite app_nil_r. Qed.

(** Any position in valid text is inside at most one character. *)
Lemma valid_cut cps : Forall scalar cps -> forall a r, flat_map encode cps = a ++ r ->
  exists p u1 u2 q, a = p ++ u1 /\ r = u2 ++ q /\ valid_utf8 p /\ valid_utf8 q /\
    ((u1 = [] /\ u2 = []) \/ (u1 <> [] /\ exists cp, scalar cp /\ encode cp = u1 ++ u2)).
Proof.
  induction 1 as [|cp cps Hc F IH]; intros a r E; simpl in E.
  - symmetry in E. apply app_eq_nil in E. destruct E as [-> ->]. exists [], [], [], []. splits; auto; apply valid_utf8_nil.
  - destruct a as [|x a].
    + simpl in E. exists [], [], [], r. splits; auto using valid_utf8_nil.
      rewrite <- E. apply valid_utf8_app; [now apply valid_utf8_encode|]. exists cps; auto.
    + assert (C : (exists d, encode cp = (x :: a) ++ d /\ r = d ++ flat_map encode cps) \/
                  (exists d, x :: a = encode cp ++ d /\ flat_map encode cps = d ++ r)).
      { remember (x :: a) as y. clear Heqy. clear -E. revert y E.
        induction (encode cp) as [|e es IH]; intros y E.
        - right. exists y. auto.
        - destruct y as [|z y]; simpl in E.
          + left. exists (e :: es). simpl. auto.
          + injection E as -> E. destruct (IH y E) as [(d & -> & H)|(d & -> & H)]; [left|right]; exists d; auto. }
      destruct C as [(d & C & ->)|(d & C & E2)].
      * exists [], (x :: a), d, (flat_map encode cps). splits; auto using valid_utf8_nil.
        -- exists cps; auto.
        -- right. split; [discriminate|]. exists cp. auto.
      * destruct (IH _ _ E2) as (p & u1 & u2 & q & -> & -> & Vp & Vq & H).
        exists (encode cp ++ p), u1, u2, q. rewrite C, <- app_assoc. splits; auto.
        apply valid_utf8_app; auto. now apply valid_utf8_encode.
Qed.

Lemma width_not_cont c w : seq_width c = Some w -> ~ continuation c.
Proof.
  unfold seq_width, continuation. intros H [A B].
  destruct (N.ltb_spec (bN c) 0x80); [lia|]. destruct (N.ltb_spec (bN c) 0xC0); [discriminate|lia].
Qed.

(** A piece that ends inside or behind a character is completed. *)
Lemma complete_unit schar p c k missing rest w :
  seq_width c = Some w -> Forall continuation k -> Forall continuation missing ->
  length k + length missing = w - 1 -> length (p ++ c :: k) <= 1007 ->
  complete schar (p ++ c :: k) (missing ++ rest) = Ok ((p ++ c :: k) ++ missing, rest, false).
Proof.
  intros W Fk Fm L Lb. pose proof (width_bound _ _ W) as Wb. unfold complete.
  assert (R : rev (p ++ c :: k) = rev k ++ c :: rev p).
  { rewrite rev_app_distr. simpl. now rewrite <- app_assoc. }
  rewrite R, seek_back_ok.
  - cbn [bind]. rewrite app_nil_r, rev_involutive.
    assert (K : missing = [] -> Ok (p ++ c :: k, missing ++ rest, false) = Ok ((p ++ c :: k) ++ missing, rest, false)).
    { intros ->. now rewrite app_nil_r. }
    destruct (is_utf_8_start c) eqn:S.
    + rewrite width_spec, W, seek_ahead_all; auto; [|lia].
      destruct (w - 1 - length k) as [|m] eqn:M.
      * apply K. destruct missing; [reflexivity|simpl in L; lia].
      * apply bring_in_exact; auto; [lia|]. unfold INLINE_BUF_SIZE. lia.
    + apply K. destruct missing as [|m ms]; [reflexivity|]. exfalso.
      assert (H : (bN c < 0xC0)%N).
      { destruct (N.lt_ge_cases (bN c) 0xC0) as [H|H]; auto. apply is_start_width in H. congruence. }
      unfold seq_width in W. destruct (N.ltb_spec (bN c) 0x80).
      * injection W as <-. simpl in L. lia.
      * destruct (N.ltb_spec (bN c) 0xC0); [discriminate|lia].
  - rewrite Forall_forall in *. intros x X. apply Fk. now rewrite in_rev.
  - eapply width_not_cont; eauto.
  - unfold UTF_8_MAX_LENGTH. rewrite rev_length. lia.
Qed.

Lemma encode_head cp : scalar cp -> exists c conts w, encode cp = c :: conts /\ seq_width c = Some w /\
  length conts = w - 1 /\ Forall continuation conts.
Proof.
  intros H. pose proof (encode_sequence cp (scalar_bound _ H)) as S. inversion S; subst. eauto 8.
Qed.

Lemma valid_last p : valid_utf8 p -> p <> [] -> exists q c k w, p = q ++ c :: k /\ seq_width c = Some w /\
  Forall continuation k /\ length k = w - 1.
Proof.
  intros (cps & F & ->) NE. destruct (exists_last (l := cps)) as (pre & cp & ->).
  { intros ->. now apply NE. }
  apply Forall_app in F. destruct F as [_ F]. inversion F; subst.
  destruct (encode_head cp) as (c & conts & w & E & W & L & Fc); auto.
  rewrite flat_map_app. simpl. rewrite app_nil_r, E. exists (flat_map encode pre), c, conts, w. auto.
Qed.

Lemma complete_valid schar b rest : valid_utf8 (b ++ rest) -> b <> [] -> length b <= 1007 ->
  exists add rest', rest = add ++ rest' /\ complete schar b rest = Ok (b ++ add, rest', false) /\
    valid_utf8 (b ++ add) /\ valid_utf8 rest'.
Proof.
  intros (cps & F & E) NE L. symmetry in E.
  destruct (valid_cut cps F b rest E) as (p & u1 & u2 & q & -> & -> & Vp & Vq & [(-> & ->)|(Nu & cp & Hc & Ec)]).
  - rewrite app_nil_r in *. destruct (valid_last p Vp NE) as (x & c & k & w & -> & W & Fk & Lk).
    exists [], q. splits; auto.
    + apply (complete_unit schar x c k [] q w); auto. simpl. lia.
    + now rewrite app_nil_r.
  - destruct (encode_head cp Hc) as (c & conts & w & Eh & W & Lc & Fc).
    rewrite Eh in Ec. destruct u1 as [|c' k]; [contradiction|]. injection Ec as <- ->.
    apply Forall_app in Fc. destruct Fc as [Fk Fm]. rewrite app_length in Lc.
    exists u2, q. splits; auto.
    + apply complete_unit with (w := w); auto.
    + rewrite <- app_assoc. apply valid_utf8_app; auto. simpl. rewrite <- Eh. now apply valid_utf8_encode.
Qed.

Lemma valid_not_only b rest : valid_utf8 (b ++ rest) -> b <> [] -> ~ only_continuation b.
Proof.
  intros (cps & F & E) NE [_ C]. destruct b as [|x b]; [contradiction|].
  destruct cps as [|cp cps]; [discriminate|]. inversion F; subst.
  destruct (encode_head cp) as (c & conts & w & Eh & W & _); auto. simpl in E. rewrite Eh in E. injection E as -> _.
  inversion C; subst. eapply width_not_cont; eauto.
Qed.

(** A newline is a character of its own. *)
Lemma valid_line t rest : valid_utf8 (t ++ newline :: rest) -> valid_utf8 t /\ valid_utf8 rest.
Proof.
  intros (cps & F & E). symmetry in E.
  destruct (valid_cut cps F _ _ E) as (p & u1 & u2 & q & -> & E2 & Vp & Vq & H).
  assert (NC : ~ continuation newline) by (intros [A B]; vm_compute in A; congruence).
  assert (X : forall u, valid_utf8 u -> u = newline :: rest -> valid_utf8 rest).
  { intros u (cs & Fs & ->) Hu. destruct cs as [|cp cs]; [discriminate|]. inversion Fs; subst.
    destruct (encode_head cp) as (c & conts & w & Eh & W & Lc & Fc); auto. simpl in Hu. rewrite Eh in Hu.
    injection Hu as -> Hu. replace w with 1 in Lc by (vm_compute in W; congruence).
    destruct conts; [|discriminate]. simpl in Hu. subst rest. exists cs. auto. }
  destruct H as [(-> & ->)|(Nu & cp & Hc & Ec)].
  - rewrite app_nil_r. simpl in E2. split; auto. apply (X _ Vq). auto.
  - destruct (encode_head cp Hc) as (c & conts & w & Eh & W & Lc & Fc). rewrite Eh in Ec.
    destruct u1 as [|c' k]; [contradiction|]. injection Ec as <- ->.
    destruct u2 as [|m u2].
    + rewrite app_nil_r in *. simpl in E2. split; [|now apply (X _ Vq)].
      apply valid_utf8_app; auto. rewrite <- Eh. now apply valid_utf8_encode.
    + injection E2 as <- _. apply Forall_app in Fc. destruct Fc as [_ Fm]. inversion Fm; subst. contradiction.
Qed.

Lemma written_cons t nl ps r rs :
  written ((t, nl) :: ps) (r :: rs) = r ++ (if nl then [newline] else []) ++ written ps rs.
Proof. unfold written. simpl. unfold spell at 1. simpl. now rewrite <- app_assoc. Qed.

Lemma pieces o : forall n contents, length contents < n -> nonul contents ->
  exists ps bad, cut_into contents ps bad /\
    (bad = [] \/ bad <> [] /\ only_continuation bad) /\
    (valid_utf8 contents -> bad = [] /\ Forall valid_utf8 (map fst ps)) /\
    forall rs, Forall2 (cleans_to o) (map fst ps) rs ->
      delivers (match bad with [] => Ret tt | _ => Stop (StopUB BufferUnderread) end) (inline_loop n o contents) (written ps rs).
Proof.
  induction n as [|n IH]; intros contents Ln U; [lia|].
  destruct contents as [|c0 contents0].
  { exists [], []. splits; auto.
    - unfold cut_into. splits; simpl; auto. intros [|? a] t b X; discriminate.
    - split; [reflexivity|constructor].
    - intros rs F. inversion F; subst. apply delivers_end. }
  remember (c0 :: contents0) as contents.
  assert (NE : contents <> []) by (subst; discriminate). clear Heqcontents c0 contents0.
  destruct (read_piece_cases (p_schar (o_platform o)) contents NE) as (b & rest & N & H).
  pose proof N as (-> & B & Lb & _). pose proof U as U'. apply nonul_app in U'. destruct U' as [Ub Ur].
  rewrite (cstr_nonul b Ub) in H.
  destruct H as [(t & _ & -> & Nt & Ut & R)|[(NL & C & R)|(NL & C & add & rest' & w & -> & Na & Nu & R)]].
  - (* a line *)
    destruct (IH rest) as (ps & bad & (E & T & M & W) & HB & V & D); auto.
    { rewrite !app_length in Ln. simpl in Ln. lia. }
    exists ((t, true) :: ps), bad. splits; auto.
    + unfold cut_into. splits.
      * simpl. unfold spell at 1. simpl. rewrite E, <- !app_assoc. reflexivity.
      * constructor; auto. split; auto.
      * constructor; auto. split; [now destruct t|]. simpl. rewrite app_length in Lb. simpl in Lb. lia.
      * intros [|x a] s d X Y; [discriminate|]. apply (f_equal (@tl _)) in X. simpl in X. eapply W; eauto.
    + intros Vc. rewrite <- app_assoc in Vc. destruct (valid_line t rest Vc) as [V1 V2]. destruct (V V2). split; auto.
      constructor; auto.
    + intros rs F. inversion F as [|? r ? rs' Cr Fr]; subst.
      pose proof (delivers_piece (match bad with [] => Ret tt | _ => Stop (StopUB BufferUnderread) end)
        n o _ _ r (written ps rs') R Cr (D _ Fr)) as X. cbn [pc_newline] in X.
      rewrite written_cons. exact X.
  - (* nothing but continuation bytes *)
    exists [], (b ++ rest). splits; auto.
    + unfold cut_into. splits; simpl; auto. intros [|? a] t d X; discriminate.
    + right. split; auto.
      assert (rest = []) as ->.
      { destruct N as (_ & _ & _ & [(t & -> & _)|[_ [L|L]]]); auto.
        - exfalso. apply NL. apply in_or_app. right. now left.
        - destruct C as [C _]. lia. }
      now rewrite app_nil_r.
    + intros V. exfalso. eapply valid_not_only; eauto.
    + intros rs F. inversion F; subst. destruct (b ++ rest) eqn:Eb; [apply app_eq_nil in Eb; tauto|].
      cbn [inline_loop]. rewrite R. cbn [lift pbind]. apply delivers_stop.
  - (* part of a line *)
    destruct (read_part (p_schar (o_platform o)) _ _ _ N) as (add2 & rest2 & w2 & E2 & _ & _ & R2 & Cm);
      rewrite (cstr_nonul b Ub) in *; auto.
    rewrite R in R2. injection R2 as Ea <- <-. apply app_inv_head in Ea. subst add2. clear E2.
    apply nonul_app in Ur. destruct Ur as [Ua Ur].
    destruct (IH rest') as (ps & bad & (E & T & M & W) & HB & V & D); auto.
    { rewrite !app_length in Ln. assert (0 < length b) by (destruct b; [contradiction|simpl; lia]). lia. }
    assert (La : length add <= 5).
    { destruct (complete_spec (p_schar (o_platform o)) b (add ++ rest') Lb) as [_ X].
      destruct (X C) as (add3 & rest3 & w3 & E3 & _ & L3 & _). rewrite Cm in E3.
      injection E3 as E3 _ _. apply app_inv_head in E3. now subst add3. }
    exists ((b ++ add, false) :: ps), bad. splits; auto.
    + unfold cut_into. splits.
      * simpl. unfold spell at 1. simpl. rewrite E, app_nil_r, <- !app_assoc. reflexivity.
      * constructor; auto. simpl. split; [now apply nonul_app|]. intros X. apply in_app_or in X. tauto.
      * constructor; auto. split; [now destruct b|]. simpl. rewrite app_length. lia.
      * intros [|x a] s d X Y.
        -- injection X as <- <-. rewrite app_length.
           destruct N as (_ & _ & _ & [(t & -> & _)|[_ [L|L]]]); [|lia|].
           ++ exfalso. apply NL. apply in_or_app. right. now left.
           ++ exfalso. apply app_eq_nil in L. destruct L as [-> ->].
              symmetry in E. apply app_eq_nil in E. destruct E as [E ->]. destruct Y as [Y|Y]; [|now apply Y].
              destruct ps as [|x ps]; [now apply Y|]. inversion M as [|? ? [M1 _] _]; subst.
              simpl in E. apply app_eq_nil in E. tauto.
        -- apply (f_equal (@tl _)) in X. simpl in X. eapply W; eauto.
    + intros Vc.
      destruct (complete_valid (p_schar (o_platform o)) b (add ++ rest') Vc B Lb) as (add3 & rest3 & _ & E3 & V1 & V2).
      rewrite Cm in E3. injection E3 as E3 <- _. apply app_inv_head in E3. subst add3.
      destruct (V V2). split; auto. constructor; auto.
    + intros rs F. inversion F as [|? r ? rs' Cr Fr]; subst.
      pose proof (delivers_piece (match bad with [] => Ret tt | _ => Stop (StopUB BufferUnderread) end)
        n o _ _ r (written ps rs') R Cr (D _ Fr)) as X. cbn [pc_newline] in X.
      rewrite written_cons. exact X.
Qed.

(** ** Filters that work character by character *)

Lemma encode_cancel c1 c2 a b : scalar c1 -> scalar c2 -> encode c1 ++ a = encode c2 ++ b -> a = b.
Proof.
  intros H1 H2. destruct (encode_head c1 H1) as (x & k & w & -> & W & L & _).
  destruct (encode_head c2 H2) as (y & j & v & -> & V & M & _). simpl. intros [= <- E].
  assert (w = v) by congruence. subst v. assert (LL : length k = length j) by congruence. clear -E LL.
  revert j LL E. induction k as [|z k IH]; intros [|t j] LL E; try discriminate; auto.
  injection E as -> E. injection LL as LL. eauto.
Qed.

Lemma valid_cancel a b : valid_utf8 (a ++ b) -> valid_utf8 a -> valid_utf8 b.
Proof.
  intros (cps & F & E) (cs & G & ->). revert cps F E. induction G as [|c cs Hc G IH]; intros cps F E.
  - exists cps. auto.
  - destruct cps as [|d cps].
    + exfalso. simpl in E. destruct (encode_head c Hc) as (x & k & w & X & _). rewrite X in E. discriminate.
    + inversion F; subst. simpl in E. rewrite <- app_assoc in E. apply encode_cancel in E; auto. eauto.
Qed.

Lemma split_at_newline t l a b : ~ In newline t -> ~ In newline l -> t ++ newline :: a = l ++ newline :: b -> t = l /\ a = b.
Proof.
  revert l. induction t as [|x t IH]; intros [|y l] Nt Nl E.
  - injection E as ->. auto.
  - injection E as <- _. exfalso. apply Nl. now left.
  - injection E as -> _. exfalso. apply Nt. now left.
  - injection E as -> E. destruct (IH l) as [-> ->]; auto; intros X; [apply Nt|apply Nl]; now right.
Qed.

Lemma part_of_line t r l b : ~ In newline t -> t ++ r = l ++ newline :: b -> exists l', l = t ++ l' /\ r = l' ++ newline :: b.
Proof.
  revert l. induction t as [|x t IH]; intros l Nt E.
  - exists l. auto.
  - destruct l as [|y l].
    + injection E as -> _. exfalso. apply Nt. now left.
    + injection E as -> E. destruct (IH l) as (l' & -> & ->); auto; [intros X; apply Nt; now right|]. exists l'. auto.
Qed.

Lemma whole_lines (f : str -> str) :
  (forall a b, valid_utf8 a -> valid_utf8 b -> f (a ++ b) = f a ++ f b) ->
  forall ps ls last, Forall line_text (map fst ps) -> Forall valid_utf8 (map fst ps) ->
    Forall line_text ls -> line_text last -> Forall valid_utf8 ls -> valid_utf8 last ->
    concat (map spell ps) = concat (map ended ls) ++ last ->
    written ps (map f (map fst ps)) = concat (map ended (map f ls)) ++ f last.
Proof.
  intros Hom.
  assert (F0 : f [] = []).
  { pose proof (Hom [] [] valid_utf8_nil valid_utf8_nil) as E. simpl in E.
    apply (f_equal (@length _)) in E. rewrite app_length in E. destruct (f []); auto. simpl in E. lia. }
  induction ps as [|[t nl] ps IH]; intros ls last T V Tl Tt Vl Vt E.
  - simpl in E. symmetry in E. apply app_eq_nil in E. destruct E as [E ->].
    destruct ls as [|l ls]; [simpl; rewrite F0; reflexivity|].
    simpl in E. unfold ended at 1 in E. destruct l; discriminate.
  - inversion T as [|? ? [Ut Nt] T']; subst. inversion V as [|? ? Vt' V']; subst.
    cbn [map fst snd]. rewrite written_cons. simpl in E. unfold spell at 1 in E. cbn [fst snd] in E.
    rewrite <- app_assoc in E. destruct nl.
    + simpl in E. destruct ls as [|l ls].
      * exfalso. simpl in E. destruct Tt as [_ Tt]. apply Tt. rewrite <- E. apply in_or_app. right. now left.
      * inversion Tl as [|? ? [Ul Nl] Tl']; subst. inversion Vl; subst.
        simpl in E. unfold ended at 1 in E. rewrite <- !app_assoc in E. simpl in E.
        apply split_at_newline in E; auto. destruct E as [<- E].
        rewrite (IH ls last); auto. simpl. unfold ended at 2. rewrite <- !app_assoc. reflexivity.
    + simpl in E. destruct ls as [|l ls].
      * simpl in E. subst last. rewrite (IH [] (concat (map spell ps))); auto.
        -- simpl. rewrite Hom; auto. eapply valid_cancel; eauto.
        -- destruct Tt as [A B]. apply nonul_app in A. split; [tauto|]. intros X. apply B. apply in_or_app. auto.
        -- eapply valid_cancel; eauto.
      * inversion Tl as [|? ? [Ul Nl] Tl']; subst. inversion Vl; subst.
        simpl in E. unfold ended at 1 in E. rewrite <- !app_assoc in E. simpl in E.
        apply part_of_line in E; auto. destruct E as (l' & -> & E).
        assert (Vl' : valid_utf8 l') by (eapply valid_cancel; eauto).
        rewrite (IH (l' :: ls) last); auto.
        -- simpl. rewrite Hom; auto. unfold ended at 1 3. rewrite <- !app_assoc. reflexivity.
        -- constructor; auto. apply nonul_app in Ul. split; [tauto|]. intros X. apply Nl. apply in_or_app. auto.
        -- simpl. rewrite E. unfold ended at 2. rewrite <- !app_assoc. reflexivity.
Qed.

(** ** How inline mode can stop *)

Lemma inline_stop o : forall n input tr w, length input < n ->
  trace_of (inline_loop n o input) tr (Stop w) ->
  w = StopUB BufferUnderread \/
  (exists text why, sequence_run_filters (o_platform o) (o_sequence_to_use o) text = UB why /\ w = StopUB why) \/
  (exists text code, sequence_run_filters (o_platform o) (o_sequence_to_use o) text = Exit code /\ w = StopExit code).
Proof.
  induction n as [|n IH]; intros input tr w L R; [lia|]. cbn [inline_loop] in R.
  destruct (read_piece (p_schar (o_platform o)) input) as [[p|]|why|code] eqn:E.
  2:{ simpl in R. destruct R as [(_ & _ & R)|[]]. discriminate. }
  2:{ cbn [lift pbind] in R. destruct R as [(_ & _ & R)|[]]. injection R as ->.
      assert (NE : input <> []) by (intros ->; discriminate).
      destruct (read_piece_cases (p_schar (o_platform o)) input NE) as (b & rest & _ & H).
      destruct H as [(t & _ & _ & _ & _ & H)|[(_ & _ & H)|(_ & _ & add & rest' & w' & _ & _ & _ & H)]];
        rewrite H in E; try discriminate. injection E as <-. auto. }
  2:{ exfalso. assert (NE : input <> []) by (intros ->; discriminate).
      destruct (read_piece_cases (p_schar (o_platform o)) input NE) as (b & rest & _ & H).
      destruct H as [(t & _ & _ & _ & _ & H)|[(_ & _ & H)|(_ & _ & add & rest' & w' & _ & _ & _ & H)]];
        rewrite H in E; discriminate. }
  pose proof (read_piece_shrinks _ _ _ E) as Sh. cbn [lift pbind] in R.
  rewrite talking_sequence, told_bind in R.
  assert (Tl : forall (q : prog unit) l tr, trace_of (told l q) tr (Stop w) -> exists tr', trace_of q tr' (Stop w)).
  { clear. intros q. induction l as [|[a b] l IH]; intros tr R; [eauto|].
    unfold trace_of in R. cbn [told runs] in R. destruct R as [(_ & _ & X)|(s0 & r & [] & tr' & _ & _ & _ & R)]; [discriminate|].
    exact (IH _ R). }
  assert (M : forall tr, trace_of (let! cleaned := lift (sequence_run_filters (o_platform o) (o_sequence_to_use o)
      (if is_protected (pc_text p) then None else Some (pc_text p))) in
      (let! _ := print Stdout (match cleaned with Some w => w | None => pc_text p end) in
      (let! _ := (if pc_newline p then print Stdout [newline] else Ret tt) in
      inline_loop n o (pc_rest p)))) tr (Stop w) ->
    w = StopUB BufferUnderread \/
    (exists text why, sequence_run_filters (o_platform o) (o_sequence_to_use o) text = UB why /\ w = StopUB why) \/
    (exists text code, sequence_run_filters (o_platform o) (o_sequence_to_use o) text = Exit code /\ w = StopExit code)).
  { clear R tr. intros tr R.
    destruct (sequence_run_filters _ _ (if is_protected (pc_text p) then None else Some (pc_text p))) as [c|why|code] eqn:F.
    - cbn [lift pbind print] in R. unfold trace_of in R. simpl runs in R.
      destruct R as [(_ & _ & X)|(s0 & r & s1 & tr' & _ & _ & _ & R)]; [discriminate|].
      destruct s1. destruct (pc_newline p).
      + simpl runs in R. destruct R as [(_ & _ & X)|(s2 & r2 & s3 & tr2 & _ & _ & _ & R)]; [discriminate|].
        destruct s3. apply (IH (pc_rest p) tr2 w); auto. lia.
      + apply (IH (pc_rest p) tr' w); auto. lia.
    - cbn [lift pbind] in R. destruct R as [(_ & _ & R)|[]]. injection R as ->. eauto 8.
    - cbn [lift pbind] in R. destruct R as [(_ & _ & R)|[]]. injection R as ->. eauto 8. }
  destruct (pc_warning p); cbn [pbind print] in R.
  - unfold trace_of in R. cbn [runs] in R. destruct R as [(_ & _ & X)|(s0 & r & s1 & tr' & _ & _ & _ & R)]; [discriminate|].
    destruct s1. apply Tl in R. destruct R as [tr2 R]. exact (M _ R).
  - apply Tl in R. destruct R as [tr2 R]. exact (M _ R).
Qed.

(** A stream whose next line starts with NUL. *)
Lemma nul_line schar rest : read_piece schar (NUL :: rest) = UB BufferUnderread.
Proof.
  assert (NE : NUL :: rest <> []) by discriminate.
  destruct (fgets_next _ NE) as (b & r & _ & N).
  pose proof N as (E & B & _). destruct b as [|c b]; [contradiction|]. injection E as <- _.
  apply (read_bad schar _ _ _ N); simpl; auto. split; simpl; auto. lia.
Qed.

Lemma delivers_bad o input n : length input < n -> read_piece (p_schar (o_platform o)) input = UB BufferUnderread ->
  delivers (Stop (StopUB BufferUnderread)) (inline_loop n o input) [].
Proof.
  intros L E. destruct n as [|n]; [lia|]. cbn [inline_loop]. rewrite E. cbn [lift pbind]. apply delivers_stop.
Qed.
