(** * Proofs about table files *)

From Verif Require Import Base BaseFacts Stdio StdioFacts Table TableSpec TableProofs ParseTable ParseTableSpec.

Local Open Scope nat_scope.

(** ** Characters *)

Lemma is_space_list c : is_space c = existsb (beq c) [x20; x09; x0b; x0c; x0d; newline].
Proof.
  apply Bool.eqb_prop. revert c.
  apply (byte_sweep (fun c => Bool.eqb (is_space c) (existsb (beq c) [x20; x09; x0b; x0c; x0d; newline]))).
  vm_compute. reflexivity.
Qed.

Lemma is_space_iff c : is_space c = true <-> blank c \/ c = newline.
Proof.
  rewrite is_space_list. unfold blank. rewrite existsb_exists. split.
  - intros (x & I & E). apply beq_eq in E. subst x. simpl in *. intuition auto.
  - intros H. exists c. split; [|apply beq_refl]. simpl in *. intuition auto.
Qed.

Lemma blank_space c : blank c -> is_space c = true.
Proof. intros H. apply is_space_iff. now left. Qed.

Lemma nonspace c : ~ blank c /\ c <> newline -> is_space c = false.
Proof. intros [A B]. apply not_true_is_false. rewrite is_space_iff. tauto. Qed.

Lemma blanks_app a b : blanks (a ++ b) <-> blanks a /\ blanks b.
Proof. apply Forall_app. Qed.

(** Spaces of any kind. *)
Definition spaces (s : str) : Prop := Forall (fun c => is_space c = true) s.
Definition eol (e : str) : Prop := e = [] \/ e = [newline].
Definition stops (s : str) : Prop := match s with [] => True | c :: _ => is_space c = false end.
Definition breaks (s : str) : Prop := match s with [] => True | c :: _ => is_space c = true end.

Lemma blanks_spaces s : blanks s -> spaces s.
Proof. apply Forall_impl. apply blank_space. Qed.

Lemma eol_spaces e : eol e -> spaces e.
Proof. intros [-> | ->]; repeat constructor. Qed.

Lemma spaces_app a b : spaces a -> spaces b -> spaces (a ++ b).
Proof. intros. now apply Forall_app. Qed.

Lemma skip_space_spec a r : spaces a -> stops r -> skip_space (a ++ r) = (length a, r).
Proof.
  intros H S. induction H as [|c a C H IH]; simpl.
  - destruct r as [|c r]; simpl; [reflexivity|]. simpl in S. now rewrite S.
  - now rewrite C, IH.
Qed.

Lemma skip_spaces a : spaces a -> skip_space a = (length a, []).
Proof. intros H. rewrite <- (app_nil_r a) at 1. now apply skip_space_spec. Qed.

Lemma scan_until_spec stop w r :
  Forall (fun c => stop c = false) w -> match r with [] => True | c :: _ => stop c = true end ->
  scan_until stop (w ++ r) = (w, r).
Proof.
  intros H S. induction H as [|c w C H IH]; simpl.
  - destruct r as [|c r]; simpl; [reflexivity|]. now rewrite S.
  - now rewrite C, IH.
Qed.

Lemma word_nonspace w : word w -> Forall (fun c => is_space c = false) w.
Proof. intros [_ H]. eapply Forall_impl; [|exact H]. apply nonspace. Qed.

Lemma word_stops w r : word w -> stops (w ++ r).
Proof. intros H. pose proof (word_nonspace w H) as F. destruct H as [N _]. destruct w as [|c w]; [easy|]. now inversion F. Qed.

Lemma scan_s_word a w r : spaces a -> word w -> breaks r -> scan_s (a ++ w ++ r) = Some (w, r).
Proof.
  intros A W R. unfold scan_s. rewrite skip_space_spec by (auto; now apply word_stops).
  destruct (w ++ r) as [|c s] eqn:E.
  { destruct W as [N _]. destruct w; [easy|discriminate]. }
  rewrite <- E. f_equal. apply scan_until_spec; [now apply word_nonspace|]. destruct r; auto.
Qed.

Lemma breaks_app b r : spaces b -> b <> [] -> breaks (b ++ r).
Proof. intros H N. destruct b as [|c b]; [easy|]. now inversion H. Qed.

Lemma scan_word_spec a w b r : spaces a -> word w -> spaces b -> stops r -> (b = [] -> r = []) ->
  scan_word (a ++ w ++ b ++ r) = Some (w, length (a ++ w ++ b)).
Proof.
  intros A W B R N. unfold scan_word.
  rewrite scan_s_word; auto.
  - rewrite skip_space_spec by auto. repeat f_equal. rewrite !app_length. lia.
  - destruct b as [|c b]; [rewrite N; simpl; auto|]. now apply breaks_app.
Qed.

Lemma scan_word_none a : spaces a -> scan_word a = None.
Proof. intros H. unfold scan_word, scan_s. now rewrite skip_spaces. Qed.

Lemma stops_dec r : {a : str & {s | r = a ++ s /\ spaces a /\ stops s}}.
Proof.
  induction r as [|c r (a & s & E & A & S)].
  - exists [], []. repeat split. constructor.
  - destruct (is_space c) eqn:C.
    + exists (c :: a), s. subst r. repeat split; auto. now constructor.
    + exists [], (c :: r). repeat split; auto. constructor.
Qed.

(** ** Case *)

Lemma bN_to_lower c :
  bN (to_lower c) = (if (65 <=? bN c) && (bN c <=? 90) then bN c + 32 else bN c)%N.
Proof.
  unfold to_lower. destruct (_ && _) eqn:E; [|reflexivity].
  apply bN_Nb. apply andb_true_iff in E. destruct E as [_ E]. apply N.leb_le in E. lia.
Qed.

Lemma same_letter_iff a b : same_letter a b <-> to_lower a = to_lower b.
Proof.
  unfold same_letter. split.
  - intros [->|(n & L & H)]; [reflexivity|]. apply bN_inj. rewrite !bN_to_lower.
    destruct (N.leb_spec 65 (bN a)), (N.leb_spec (bN a) 90), (N.leb_spec 65 (bN b)), (N.leb_spec (bN b) 90); simpl; lia.
  - intros H. apply (f_equal bN) in H. rewrite !bN_to_lower in H.
    destruct (N.leb_spec 65 (bN a)), (N.leb_spec (bN a) 90), (N.leb_spec 65 (bN b)), (N.leb_spec (bN b) 90);
      simpl in H; try (left; apply bN_inj; lia).
    all: try (right; exists (bN a - 65)%N; split; [lia|left; lia]).
    all: try (right; exists (bN b - 65)%N; split; [lia|right; lia]).
Qed.

Lemma begins_with_nil w : begins_with [] w.
Proof. exists [], w. split; [reflexivity|constructor]. Qed.

Lemma begins_with_cons y k x w : begins_with (y :: k) (x :: w) <-> same_letter x y /\ begins_with k w.
Proof.
  unfold begins_with. split.
  - intros (p & q & E & S). inversion S as [|x' y' p' k' A B]; subst.
    simpl in E. injection E as <- ->. split; auto. exists p', q. auto.
  - intros (A & p & q & -> & S). exists (x :: p), q. split; auto. now constructor.
Qed.

Lemma begins_with_short y k : ~ begins_with (y :: k) [].
Proof. intros (p & q & E & S). inversion S; subst. discriminate. Qed.

Lemma strncaseeq_prefix k : forall w, strncaseeq (length k) w k = true <-> begins_with k w.
Proof.
  induction k as [|y k IH]; intros w; simpl.
  - split; [intros _; apply begins_with_nil|auto].
  - destruct w as [|x w]; [split; [discriminate|intros H; now apply begins_with_short in H]|].
    rewrite andb_true_iff, beq_eq, IH, begins_with_cons, same_letter_iff. reflexivity.
Qed.

Lemma strncaseeq_sym n : forall a b, strncaseeq n a b = strncaseeq n b a.
Proof.
  induction n as [|n IH]; intros [|x a] [|y b]; simpl; auto.
  rewrite IH. f_equal. apply Bool.eq_iff_eq_true. rewrite !beq_eq. split; auto.
Qed.

Lemma strncaseeq_all k : forall n w, length k < n -> strncaseeq n w k = true <-> same_text w k.
Proof.
  unfold same_text. induction k as [|y k IH]; intros [|n] w L; simpl in L; try lia; simpl.
  - destruct w; split; auto; try discriminate. intros H. inversion H.
  - destruct w as [|x w].
    + split; [discriminate|intros H; inversion H].
    + rewrite andb_true_iff, beq_eq, IH by lia. rewrite <- same_letter_iff. split.
      * intros [A B]. now constructor.
      * intros H. inversion H; subst. auto.
Qed.

(** ** Numbers *)

Lemma digit_value_spec base c d : (base <= 16)%N -> (d < base)%N -> digit c d -> digit_value base c = Some d.
Proof.
  intros B L H.
  assert (E : (d = 0 \/ d = 1 \/ d = 2 \/ d = 3 \/ d = 4 \/ d = 5 \/ d = 6 \/ d = 7 \/
              d = 8 \/ d = 9 \/ d = 10 \/ d = 11 \/ d = 12 \/ d = 13 \/ d = 14 \/ d = 15)%N) by lia.
  unfold digit in H.
  repeat (destruct E as [->|E]); try subst d;
    destruct H as [H|H]; vm_compute in H; injection H as <-; unfold digit_value;
    match goal with |- match ?v with _ => _ end = _ => let v' := eval vm_compute in v in change v with v' end;
    cbv beta iota; apply N.ltb_lt in L; now rewrite L.
Qed.

Lemma digit_not c d : (d < 16)%N -> digit c d -> is_space c = false /\ c <> "-"%byte /\ c <> "+"%byte /\ c <> "#"%byte.
Proof.
  intros L H. apply (digit_value_spec 16) in H; auto; [|reflexivity].
  assert (Q : forall c, (match digit_value 16 c with Some _ => negb (is_space c) && negb (beq c "-") && negb (beq c "+") && negb (beq c "#") | None => true end) = true).
  { apply byte_sweep. vm_compute. reflexivity. }
  specialize (Q c). rewrite H in Q. rewrite !andb_true_iff, !negb_true_iff, !beq_neq in Q. tauto.
Qed.

Lemma space_no_digit base c : is_space c = true -> digit_value base c = None.
Proof.
  intros H. rewrite is_space_list in H. apply existsb_exists in H. destruct H as (x & I & E).
  apply beq_eq in E. subst x. simpl in I.
  repeat (destruct I as [<-|I]); try easy; reflexivity.
Qed.

Lemma scan_digits_spec base s ds : (base <= 16)%N -> Forall2 digit s ds -> Forall (fun d => d < base)%N ds ->
  forall acc r, breaks r ->
  scan_digits base acc (s ++ r) = (fold_left (fun v d => base * v + d)%N ds acc, length s, r).
Proof.
  intros B H. induction H as [|c d s ds D H IH]; intros L acc r R; simpl.
  - destruct r as [|c r]; simpl; [reflexivity|]. simpl in R. now rewrite space_no_digit.
  - inversion L; subst. rewrite (digit_value_spec base c d) by auto. now rewrite IH.
Qed.

Lemma numeral_head num v : numeral num v ->
  exists c s, num = c :: s /\ is_space c = false /\ c <> "-"%byte /\ c <> "+"%byte /\ c <> "#"%byte.
Proof.
  intros [c s v' (ds & F & L & _) N|x s v' _ _ _|s v' _].
  - inversion F as [|c' d s' ds' D F']; subst. inversion L; subst.
    exists c, s. split; auto. apply (digit_not c d); auto. lia.
  - exists "0"%byte, (x :: s). repeat split; discriminate.
  - exists "0"%byte, s. repeat split; discriminate.
Qed.

Lemma scan_magnitude_spec num v r : numeral num v -> breaks r -> scan_magnitude (num ++ r) = Some (v, r).
Proof.
  intros [c s v' (ds & F & L & ->) N|x s v' X N (ds & F & L & ->)|s v' (ds & F & L & ->)] R.
  - cbn [app]. unfold scan_magnitude. apply beq_neq in N. rewrite N.
    change (c :: s ++ r) with ((c :: s) ++ r). rewrite (scan_digits_spec 10 (c :: s) ds) by (auto; lia). reflexivity.
  - cbn [app]. unfold scan_magnitude. rewrite beq_refl.
    replace (beq x "x" || beq x "X") with true by (destruct X; subst x; reflexivity).
    rewrite (scan_digits_spec 16 s ds) by (auto; lia). reflexivity.
  - cbn [app]. unfold scan_magnitude. rewrite beq_refl.
    destruct (s ++ r) as [|x q] eqn:E.
    + apply app_eq_nil in E. destruct E as [-> ->]. inversion F. reflexivity.
    + assert (X : beq x "x" || beq x "X" = false).
      { destruct s as [|c s].
        - simpl in E. subst r. simpl in R. rewrite is_space_list in R. apply existsb_exists in R.
          destruct R as (y & I & Y). apply beq_eq in Y. subst y. simpl in I.
          repeat (destruct I as [<-|I]); try easy; reflexivity.
        - injection E as -> _. inversion F as [|c' d s' ds' D F']; subst. inversion L; subst.
          apply (digit_value_spec 8) in D; auto; [|lia].
          assert (Q : forall c, (match digit_value 8 c with Some _ => negb (beq c "x" || beq c "X") | None => true end) = true).
          { apply byte_sweep. vm_compute. reflexivity. }
          specialize (Q x). rewrite D in Q. now apply negb_true_iff. }
      rewrite X, <- E, (scan_digits_spec 8 s ds) by (auto; lia). reflexivity.
Qed.

Lemma as_int_iff z n : as_int z n <-> n = to_int z.
Proof.
  set (l := if (2 ^ 63 <=? z)%Z then (2 ^ 63 - 1)%Z else if (z <? - 2 ^ 63)%Z then (- 2 ^ 63)%Z else z).
  assert (L : forall l', as_long z l' <-> l' = l).
  { intros l'. unfold as_long, l. destruct (Z.leb_spec (2 ^ 63) z); [lia|]. destruct (Z.ltb_spec z (- 2 ^ 63)); lia. }
  change (to_int z) with ((l + 2 ^ 31) mod 2 ^ 32 - 2 ^ 31)%Z. split.
  - intros (l' & k & A & B & C). apply L in A. subst l'. rewrite C.
    replace (n + k * 2 ^ 32 + 2 ^ 31)%Z with (n + 2 ^ 31 + k * 2 ^ 32)%Z by ring.
    rewrite Z_mod_plus_full, Z.mod_small; lia.
  - intros ->. exists l, ((l + 2 ^ 31) / 2 ^ 32)%Z. splits.
    + now apply L.
    + pose proof (Z.mod_pos_bound (l + 2 ^ 31) (2 ^ 32) ltac:(lia)). lia.
    + pose proof (Z.mod_pos_bound (l + 2 ^ 31) (2 ^ 32) ltac:(lia)). lia.
    + pose proof (Z.div_mod (l + 2 ^ 31) (2 ^ 32) ltac:(lia)). lia.
Qed.

Lemma to_int_small v : (v < 2 ^ 31)%N -> to_int (Z.of_N v) = Z.of_N v.
Proof.
  intros H. unfold to_int.
  destruct (Z.leb_spec (2 ^ 63) (Z.of_N v)); [lia|]. destruct (Z.ltb_spec (Z.of_N v) (- 2 ^ 63)); [lia|].
  rewrite Z.mod_small; lia.
Qed.

Lemma scan_int_spec a num v b r : spaces a -> numeral num v -> (v < 2 ^ 31)%N -> spaces b -> stops r -> (b = [] -> r = []) ->
  scan_int (a ++ num ++ b ++ r) = inl (Z.of_N v, length (a ++ num ++ b)).
Proof.
  intros A M V B R N. unfold scan_int.
  destruct (numeral_head _ _ M) as (c & s & E & S & C1 & C2 & _).
  rewrite skip_space_spec; auto.
  2:{ rewrite E. exact S. }
  assert (K : breaks (b ++ r)).
  { destruct b as [|c' b]; [rewrite N; simpl; auto|]. now apply breaks_app. }
  pose proof (scan_magnitude_spec num v (b ++ r) M K) as G.
  rewrite E in *. cbn [app] in *. apply beq_neq in C1, C2. rewrite C1, C2, G.
  rewrite skip_space_spec by auto. rewrite to_int_small by auto.
  repeat f_equal. simpl. rewrite !app_length. simpl. rewrite !app_length. lia.
Qed.

(** ** Texts *)

Lemma token_nonempty text tok : token text tok -> tok <> [].
Proof. intros [tail [N _] _ _| |]; try discriminate. destruct text; [easy|discriminate]. Qed.

Lemma token_stops text tok e : token text tok -> stops (tok ++ e).
Proof.
  intros [tail W _ _|tail _|tail _]; try reflexivity.
  rewrite <- app_assoc. now apply word_stops.
Qed.

Lemma store_short w : length w <= 1023 -> store_parsed w = Ok w.
Proof. intros H. unfold store_parsed, TABLE_BUFFER. destruct (Nat.ltb_spec (length w) 1024); [reflexivity|lia]. Qed.

Lemma scan_set_spec q text tail :
  ~ In q text -> scan_set q (text ++ q :: tail) = match text with [] => None | _ => Some text end.
Proof.
  intros N. unfold scan_set. rewrite scan_until_spec.
  - now destruct text.
  - apply Forall_forall. intros c I. apply beq_neq. intros ->. easy.
  - apply beq_refl.
Qed.

Lemma scan_text_spec text tok e p : token text tok -> eol e -> length tok <= 1023 ->
  scan_text (tok ++ e) p = Ok (or_word text p).
Proof.
  intros [tail W Q T|tail N|tail N] E L.
  - rewrite <- app_assoc. destruct W as [W1 W2]. destruct text as [|c text]; [easy|].
    cbn [app]. unfold scan_text. destruct (Q c text eq_refl) as [Q1 Q2].
    apply beq_neq in Q1, Q2. rewrite Q1, Q2.
    change (c :: text ++ tail ++ e) with ([] ++ (c :: text) ++ tail ++ e).
    rewrite scan_s_word.
    + apply store_short. rewrite app_length in L. simpl in *. lia.
    + constructor.
    + now split.
    + destruct T as [->|(c' & r & -> & B)].
      * destruct E as [-> | ->]; [exact I|reflexivity].
      * now apply blank_space.
  - simpl in L. rewrite app_length in L. simpl in L.
    cbn [app]. unfold scan_text. rewrite beq_refl, <- app_assoc. cbn [app].
    rewrite scan_set_spec by auto. destruct text; [reflexivity|]. apply store_short. simpl in *. lia.
  - simpl in L. rewrite app_length in L. simpl in L.
    cbn [app]. unfold scan_text. replace (beq single_quote double_quote) with false by reflexivity.
    rewrite beq_refl, <- app_assoc. cbn [app].
    rewrite scan_set_spec by auto. destruct text; [reflexivity|]. apply store_short. simpl in *. lia.
Qed.

Lemma at_offset_app a b : at_offset (a ++ b) (Some (length a)) = Ok b.
Proof.
  unfold at_offset. rewrite app_length. destruct (Nat.leb_spec (length a) (length a + length b)); [|lia].
  f_equal. rewrite skipn_app, skipn_all2, Nat.sub_diag by lia. reflexivity.
Qed.

(** ** Lines *)

(** The effect of a directive on the table; None is rejection. *)
Definition effect (d : directive) (t : table) : option table :=
  match d with
  | Entry c x => match table_put t c x with (t', Some _) => Some t' | (_, None) => None end
  | Default x => Some (set_default t x)
  | Nothing => Some t
  end.

Definition is_hash (work : str) : bool := match work with c :: _ => beq c "#" | [] => false end.

Lemma hash_word a w r : blanks a -> (forall c s, w = c :: s -> c <> "#"%byte) -> w <> [] -> is_hash (a ++ w ++ r) = false.
Proof.
  intros A W N. destruct a as [|c a]; cbn [app].
  - destruct w as [|c w]; [easy|]. cbn [app is_hash]. apply beq_neq. now apply (W c w).
  - inversion A as [|x l B _]; subst. cbn [is_hash]. apply beq_neq. intros ->.
    apply blank_space in B. discriminate.
Qed.

Lemma begins_hash k w : begins_with k w -> (forall c s, k = c :: s -> to_lower c <> "#"%byte) -> k <> [] ->
  forall c s, w = c :: s -> c <> "#"%byte.
Proof.
  intros B K N c s -> ->. destruct k as [|y k]; [easy|]. apply begins_with_cons in B. destruct B as [B _].
  apply same_letter_iff in B. apply (K y k eq_refl). now rewrite <- B.
Qed.

Lemma same_text_begins w k : same_text w k -> begins_with k w.
Proof. intros H. exists w, []. rewrite app_nil_r. auto. Qed.

Lemma word_breaks b e : (b = [] \/ exists c r, b = c :: r /\ blank c) -> eol e -> breaks (b ++ e).
Proof.
  intros [->|(c & r & -> & B)] E.
  - destruct E as [-> | ->]; reflexivity.
  - now apply blank_space.
Qed.

Lemma begins_bool k w : begins_with k w -> strncaseeq (length k) w k = true.
Proof. intros. now apply strncaseeq_prefix. Qed.
Lemma begins_not k w : ~ begins_with k w -> strncaseeq (length k) w k = false.
Proof. intros H. apply not_true_is_false. now rewrite strncaseeq_prefix. Qed.

Lemma start_not_default w : begins_with (bs "default") w -> ~ begins_with (bs "start") w.
Proof.
  destruct w as [|x w]; [intros H; now apply begins_with_short in H|].
  intros A B. apply begins_with_cons in A, B. destruct A as [A _], B as [B _].
  apply same_letter_iff in A, B. rewrite A in B. discriminate.
Qed.

(** Outside a block. *)
Lemma outside_bare locale a w b off t : spaces a -> word w -> spaces b -> length w <= 1023 -> is_hash (a ++ w ++ b) = false ->
  parse_table_line locale (a ++ w ++ b) (mkPt false off t) =
  Ok (Some (if strncaseeq 5 w (bs "start") then mkPt true (Some (length (a ++ w ++ b))) t
            else mkPt false (Some (length (a ++ w ++ b)))
                   (if strncaseeq 7 w (bs "default") then set_default t None else t))).
Proof.
  intros A W B L H. unfold parse_table_line. cbn [pt_table pt_inside pt_offset negb]. fold (is_hash (a ++ w ++ b)). rewrite H.
  pose proof (scan_word_spec a w b [] A W B I (fun _ => eq_refl)) as S. rewrite app_nil_r in S. rewrite S.
  cbn [bind]. rewrite store_short by auto. cbn [bind].
  assert (O : at_offset (a ++ w ++ b) (Some (length (a ++ w ++ b))) = Ok []).
  { rewrite <- (app_nil_r (a ++ w ++ b)) at 1. apply at_offset_app. }
  destruct (strncaseeq 5 w (bs "start")); [rewrite O; reflexivity|].
  destruct (strncaseeq 7 w (bs "default")); [rewrite O; reflexivity|reflexivity].
Qed.

Lemma outside_text locale a w b text tok e off t :
  spaces a -> word w -> spaces b -> b <> [] -> token text tok -> eol e -> length w <= 1023 -> length tok <= 1023 ->
  is_hash (a ++ w ++ b ++ tok ++ e) = false ->
  exists off', parse_table_line locale (a ++ w ++ b ++ tok ++ e) (mkPt false off t) =
  Ok (Some (if strncaseeq 5 w (bs "start")
            then mkPt (strncaseeq (length (or_word text w)) (or_word text w) locale) off' t
            else mkPt false off' (if strncaseeq 7 w (bs "default") then set_default t (Some (or_word text w)) else t))).
Proof.
  intros A W B N T E L1 L2 H. unfold parse_table_line. cbn [pt_table pt_inside pt_offset negb].
  fold (is_hash (a ++ w ++ b ++ tok ++ e)). rewrite H.
  rewrite scan_word_spec; auto; [|now apply (token_stops text)|easy].
  cbn [bind]. rewrite store_short by auto. cbn [bind].
  assert (O : at_offset (a ++ w ++ b ++ tok ++ e) (Some (length (a ++ w ++ b))) = Ok (tok ++ e)).
  { replace (a ++ w ++ b ++ tok ++ e) with ((a ++ w ++ b) ++ (tok ++ e)) by (now rewrite <- !app_assoc).
    apply at_offset_app. }
  pose proof (scan_text_spec text tok e w T E L2) as S.
  pose proof (token_nonempty text tok T) as NE.
  exists (Some (length (a ++ w ++ b))).
  destruct (strncaseeq 5 w (bs "start")).
  - rewrite O. cbn [bind]. destruct (tok ++ e) as [|c r] eqn:X; [destruct tok; [easy|discriminate]|].
    rewrite S. reflexivity.
  - destruct (strncaseeq 7 w (bs "default")); [|reflexivity].
    rewrite O. cbn [bind]. destruct (tok ++ e) as [|c r] eqn:X; [destruct tok; [easy|discriminate]|].
    rewrite S. reflexivity.
Qed.

Lemma outside_word locale a w r off t :
  spaces a -> word w -> breaks r -> length w <= 1023 ->
  strncaseeq 5 w (bs "start") = false -> strncaseeq 7 w (bs "default") = false ->
  exists off', parse_table_line locale (a ++ w ++ r) (mkPt false off t) = Ok (Some (mkPt false off' t)).
Proof.
  intros A W R L S D. unfold parse_table_line. cbn [pt_table pt_inside pt_offset negb].
  destruct (match a ++ w ++ r with [] => false | c :: _ => beq c "#" end); [eauto|].
  unfold scan_word. rewrite scan_s_word by auto.
  destruct (skip_space r) as [n r']. cbn [bind]. rewrite store_short by auto. cbn [bind].
  rewrite S, D. eauto.
Qed.

(** Inside a block. *)
Lemma inside_entry locale a num v b text tok e off t :
  spaces a -> numeral num v -> (v < 2 ^ 31)%N -> spaces b -> b <> [] -> token text tok -> eol e -> length tok <= 1023 ->
  is_hash (a ++ num ++ b ++ tok ++ e) = false ->
  exists off', parse_table_line locale (a ++ num ++ b ++ tok ++ e) (mkPt true off t) =
    Ok (option_map (mkPt true off') (effect (Entry v text) t)).
Proof.
  intros A M V B N T E L H. unfold parse_table_line. cbn [pt_table pt_inside pt_offset negb].
  fold (is_hash (a ++ num ++ b ++ tok ++ e)). rewrite H.
  rewrite (scan_int_spec a num v); auto; [|now apply (token_stops text)|easy].
  destruct (Z.ltb_spec (Z.of_N v) 0); [lia|].
  assert (O : at_offset (a ++ num ++ b ++ tok ++ e) (Some (length (a ++ num ++ b))) = Ok (tok ++ e)).
  { replace (a ++ num ++ b ++ tok ++ e) with ((a ++ num ++ b) ++ (tok ++ e)) by (now rewrite <- !app_assoc).
    apply at_offset_app. }
  rewrite O. cbn [bind]. exists (Some (length (a ++ num ++ b))).
  pose proof (scan_text_spec text tok e [] T E L) as S.
  pose proof (token_nonempty text tok T) as NE.
  destruct (tok ++ e) as [|c r] eqn:X; [destruct tok; [easy|discriminate]|].
  rewrite S. cbn [bind]. rewrite N2Z.id. cbn [effect].
  replace (or_word text []) with text by (now destruct text).
  destruct (table_put t v text) as [t' [o|]]; reflexivity.
Qed.

Lemma inside_number locale a num v b off t :
  spaces a -> numeral num v -> (v < 2 ^ 31)%N -> spaces b -> is_hash (a ++ num ++ b) = false ->
  exists off', parse_table_line locale (a ++ num ++ b) (mkPt true off t) = Ok (Some (mkPt true off' t)).
Proof.
  intros A M V B H. unfold parse_table_line. cbn [pt_table pt_inside pt_offset negb].
  fold (is_hash (a ++ num ++ b)). rewrite H.
  pose proof (scan_int_spec a num v b [] A M V B I (fun _ => eq_refl)) as S. rewrite app_nil_r in S. rewrite S.
  destruct (Z.ltb_spec (Z.of_N v) 0); [lia|].
  assert (O : at_offset (a ++ num ++ b) (Some (length (a ++ num ++ b))) = Ok []).
  { rewrite <- (app_nil_r (a ++ num ++ b)) at 1. apply at_offset_app. }
  rewrite O. cbn [bind]. eauto.
Qed.

Lemma scan_int_word a c w r : spaces a -> is_space c = false -> ~ In c (bs "0123456789+-") -> scan_int (a ++ c :: w ++ r) = inr false.
Proof.
  intros A S N. unfold scan_int. rewrite skip_space_spec by auto.
  assert (Q : forall c, existsb (beq c) (bs "0123456789+-") ||
     (negb (beq c "-") && negb (beq c "+") && negb (beq c "0") && match digit_value 10 c with None => true | Some _ => false end) = true).
  { apply byte_sweep. vm_compute. reflexivity. }
  specialize (Q c). apply orb_true_iff in Q. destruct Q as [Q|Q].
  { exfalso. apply N. apply existsb_exists in Q. destruct Q as (x & I & X). apply beq_eq in X. now subst x. }
  rewrite !andb_true_iff, !negb_true_iff in Q. destruct Q as (((Q1 & Q2) & Q3) & Q4).
  rewrite Q1, Q2. unfold scan_magnitude. rewrite Q3. cbn [scan_digits].
  destruct (digit_value 10 c); [discriminate|]. reflexivity.
Qed.

Lemma inside_word locale a c w r off t :
  spaces a -> word (c :: w) -> breaks r -> length (c :: w) <= 1023 -> ~ In c (bs "0123456789+-") ->
  is_hash (a ++ (c :: w) ++ r) = false ->
  exists off', parse_table_line locale (a ++ (c :: w) ++ r) (mkPt true off t) =
    Ok (Some (mkPt (negb (strncaseeq 5 (c :: w) (bs "end"))) off' t)).
Proof.
  intros A W R L N H. unfold parse_table_line. cbn [pt_table pt_inside pt_offset negb].
  fold (is_hash (a ++ (c :: w) ++ r)). rewrite H.
  pose proof (word_nonspace _ W) as F. inversion F; subst.
  cbn [app]. rewrite scan_int_word by auto.
  change (-1 <? 0)%Z with true. cbv iota.
  unfold scan_word. change (a ++ c :: w ++ r) with (a ++ (c :: w) ++ r). rewrite scan_s_word by auto.
  destruct (skip_space r) as [n r']. rewrite store_short by auto. cbn [bind]. eauto.
Qed.

Lemma line_spaces locale i a off t : spaces a ->
  exists off', parse_table_line locale a (mkPt i off t) = Ok (Some (mkPt i off' t)).
Proof.
  intros A. unfold parse_table_line. cbn [pt_table pt_inside pt_offset].
  destruct (match a with [] => false | c :: _ => beq c "#" end); [eauto|].
  rewrite scan_word_none by auto. unfold scan_int. rewrite skip_spaces by auto.
  destruct i; cbn [negb bind]; [|cbn; eauto]. change (-1 <? 0)%Z with true. cbv iota. eauto.
Qed.

Theorem line_ok locale i l j d : says locale i l j d ->
  forall e off t, eol e -> length l <= 1023 ->
  exists off', parse_table_line locale (l ++ e) (mkPt i off t) = Ok (option_map (mkPt j off') (effect d t)).
Proof.
  intros H e off t E L.
  destruct H as [i r|i l B|w l (a & b & -> & A & W & B) S|w lang l (a & b & tok & -> & A & W & B & N & T) S P|w lang l (a & b & tok & -> & A & W & B & N & T) S P
    |w l (a & b & -> & A & W & B) D|w text l (a & b & tok & -> & A & W & B & N & T) D
    |w l (a & b & -> & A & W & B) S D|code text l (a & num & b & tok & -> & A & M & V & B & N & T)
    |num code l (a & b & -> & A & W & B) M V|w l (a & b & -> & A & W & B) X|c w l (a & b & -> & A & W & B) X Y];
    rewrite ?app_length in L; cbn [effect option_map].
  - unfold parse_table_line. cbn [app pt_table]. rewrite beq_refl. eauto.
  - apply line_spaces, spaces_app; [now apply blanks_spaces|now apply eol_spaces].
  - rewrite <- !app_assoc. rewrite outside_bare; auto using blanks_spaces, spaces_app, eol_spaces; [|lia|].
    + rewrite (begins_bool (bs "start") w S : strncaseeq 5 w _ = true). eauto.
    + apply hash_word; [auto| |apply W]. apply (begins_hash _ _ S); [intros c s X|]; try discriminate. injection X as <- <-. discriminate.
  - rewrite <- !app_assoc.
    destruct (outside_text locale a w b lang tok e off t) as (off' & R); auto using blanks_spaces, eol_spaces; try lia.
    + apply hash_word; [auto| |apply W]. apply (begins_hash _ _ S); [intros c s X|]; try discriminate. injection X as <- <-. discriminate.
    + rewrite R. rewrite (begins_bool (bs "start") w S : strncaseeq 5 w _ = true).
      rewrite strncaseeq_sym, begins_bool by auto. eauto.
  - rewrite <- !app_assoc.
    destruct (outside_text locale a w b lang tok e off t) as (off' & R); auto using blanks_spaces, eol_spaces; try lia.
    + apply hash_word; [auto| |apply W]. apply (begins_hash _ _ S); [intros c s X|]; try discriminate. injection X as <- <-. discriminate.
    + rewrite R. rewrite (begins_bool (bs "start") w S : strncaseeq 5 w _ = true).
      rewrite strncaseeq_sym, begins_not by auto. eauto.
  - rewrite <- !app_assoc. rewrite outside_bare; auto using blanks_spaces, spaces_app, eol_spaces; [|lia|].
    + rewrite (begins_not (bs "start") w (start_not_default _ D) : strncaseeq 5 w _ = false).
      rewrite (begins_bool (bs "default") w D : strncaseeq 7 w _ = true). eauto.
    + apply hash_word; [auto| |apply W]. apply (begins_hash _ _ D); [intros c s X|]; try discriminate. injection X as <- <-. discriminate.
  - rewrite <- !app_assoc.
    destruct (outside_text locale a w b text tok e off t) as (off' & R); auto using blanks_spaces, eol_spaces; try lia.
    + apply hash_word; [auto| |apply W]. apply (begins_hash _ _ D); [intros c s X|]; try discriminate. injection X as <- <-. discriminate.
    + rewrite R. rewrite (begins_not (bs "start") w (start_not_default _ D) : strncaseeq 5 w _ = false).
      rewrite (begins_bool (bs "default") w D : strncaseeq 7 w _ = true). eauto.
  - rewrite <- !app_assoc. apply outside_word; auto using blanks_spaces, word_breaks; try lia.
    + apply (begins_not (bs "start") w S).
    + apply (begins_not (bs "default") w D).
  - rewrite <- !app_assoc. apply inside_entry; auto using blanks_spaces; try lia.
    destruct (numeral_head _ _ M) as (c & s & Q & _ & _ & _ & Z).
    apply hash_word; [auto| |rewrite Q; discriminate]. intros c' s' Q'. rewrite Q in Q'. injection Q' as <- <-. exact Z.
  - rewrite <- !app_assoc. apply (inside_number locale a num code); auto using blanks_spaces, spaces_app, eol_spaces.
    destruct (numeral_head _ _ M) as (c & s & Q & _ & _ & _ & Z).
    apply hash_word; [auto| |apply W]. intros c' s' Q'. rewrite Q in Q'. injection Q' as <- <-. exact Z.
  - pose proof (same_text_begins _ _ X) as S. destruct w as [|c w]; [now inversion X|].
    rewrite <- !app_assoc.
    destruct (inside_word locale a c w (b ++ e) off t) as (off' & R); auto using blanks_spaces, word_breaks; try lia.
    + intros I. apply begins_with_cons in S. destruct S as [S _]. apply same_letter_iff in S.
      simpl in I. repeat (destruct I as [<-|I]; [discriminate|]). easy.
    + apply hash_word; [auto| |discriminate]. apply (begins_hash _ _ S); [intros c' s Q|]; try discriminate. injection Q as <- <-. discriminate.
    + rewrite R. replace (strncaseeq 5 (c :: w) (bs "end")) with true; [eauto|].
      symmetry. apply strncaseeq_all; auto; simpl; lia.
  - rewrite <- !app_assoc. destruct (is_hash (a ++ (c :: w) ++ b ++ e)) eqn:Hh.
    + unfold parse_table_line. cbn [pt_table]. fold (is_hash (a ++ (c :: w) ++ b ++ e)). rewrite Hh. eauto.
    + destruct (inside_word locale a c w (b ++ e) off t) as (off' & R); auto using blanks_spaces, word_breaks; try lia.
      rewrite R. replace (strncaseeq 5 (c :: w) (bs "end")) with false; [eauto|].
      symmetry. apply not_true_is_false. rewrite strncaseeq_all; auto; simpl; lia.
Qed.

(** ** Files *)

Fixpoint effects (ds : list directive) (t : table) : option table :=
  match ds with
  | [] => Some t
  | d :: r => match effect d t with Some t' => effects r t' | None => None end
  end.

Lemma loop_ok locale i ls j ds : lines_say locale i ls j ds ->
  forall contents fuel off t, file_of ls contents -> length contents <= fuel ->
  parse_table_loop fuel locale contents (mkPt i off t) = Ok (effects ds t).
Proof.
  induction 1 as [i|i l j d ls k ds S H IH]; intros contents fuel off t [F C] L.
  - destruct C as [->|(ls' & l & E & _)]; [|now destruct ls'].
    destruct fuel; reflexivity.
  - inversion F as [|l' ls' (Z & N & B) F']; subst.
    assert (Q : exists e rest, eol e /\ contents = l ++ e ++ rest /\ file_of ls rest /\ l ++ e <> [] /\
              fgets_bytes (TABLE_BUFFER - 1) contents = (l ++ e, rest)).
    { change (TABLE_BUFFER - 1) with 1023. destruct C as [->|(ls' & l2 & E & N2 & ->)].
      - cbn [map concat]. exists [newline], (concat (map (fun l => l ++ [newline]) ls)).
        rewrite <- app_assoc. splits; auto.
        + now right.
        + split; auto.
        + now destruct l.
        + apply fgets_line; auto. lia.
      - destruct ls' as [|l1 ls'].
        + injection E as -> ->. exists [], []. rewrite !app_nil_r. cbn [map concat app]. splits; auto.
          * now left.
          * split; [constructor|now left].
          * apply fgets_last; auto; lia.
        + injection E as -> ->. cbn [map concat].
          exists [newline], (concat (map (fun l => l ++ [newline]) ls') ++ l2).
          rewrite <- !app_assoc. splits; auto.
          * now right.
          * split; auto. right. eauto.
          * now destruct l1.
          * apply fgets_line; auto. lia. }
    destruct Q as (e & rest & E & -> & FR & NE & G).
    destruct fuel as [|fuel].
    { rewrite app_assoc, app_length in L. destruct (l ++ e); [easy|]. simpl in L. lia. }
    cbn [parse_table_loop]. unfold next_line. rewrite G.
    replace (l ++ e ++ rest) with ((l ++ e) ++ rest) in * by (now rewrite <- app_assoc).
    destruct ((l ++ e) ++ rest) as [|c0 r0] eqn:X; [destruct (l ++ e); [easy|discriminate]|].
    assert (CS : cstr (l ++ e) = l ++ e).
    { apply cstr_nonul, nonul_app. split; auto. destruct E as [-> | ->]; [apply nonul_nil|].
      apply nonul_cons. split; [discriminate|apply nonul_nil]. }
    rewrite CS. destruct (line_ok _ _ _ _ _ S e off t E ltac:(lia)) as (off' & R).
    rewrite R. cbn [bind effects]. destruct (effect d t) as [t'|]; cbn [option_map]; [|reflexivity].
    apply IH; auto.
    assert (LL : length ((l ++ e) ++ rest) <= Datatypes.S fuel) by (rewrite X; exact L).
    rewrite app_length in LL. destruct (l ++ e); [easy|]. simpl in LL. lia.
Qed.

Lemma set_default_get t d k : table_get (set_default t d) k = table_get t k.
Proof. reflexivity. Qed.

Lemma effects_reject ds : forall t, wf t ->
  (effects ds t = None <->
   In 0%N (map fst (entries ds)) \/ length (t_rows t) - t_used t < length (entries ds)).
Proof.
  induction ds as [|d ds IH]; intros t W; cbn [effects entries flat_map].
  - simpl. split; [discriminate|intros [[]|H]; lia].
  - destruct d as [c x|x|]; cbn [effect].
    + destruct (table_put_cases t c x W) as [[E C]|(K & U & off & E)].
      * rewrite E. split; [|auto]. intros _. cbn [app map]. fold (entries ds).
        destruct C as [->|U]; [left; now left|]. right. simpl. lia.
      * pose proof (wf_put t c x W) as W'. pose proof (table_put_length t c x) as TL.
        destruct (table_put_accept t c x W K U) as (o & TP & _).
        rewrite TP in *. cbn [fst] in *. rewrite (IH _ W'). cbn [t_rows t_used] in *. fold (entries ds) in *. rewrite set_row_length.
        cbn [app map In length]. split; [intros [H|H]; [auto|right; lia]|].
        intros [[H|H]|H]; [easy|auto|right; lia].
    + assert (W' : wf (set_default t x)) by (now apply wf_set_default). now apply (IH _ W').
    + now apply IH.
Qed.

Lemma effects_get ds : forall t t', wf t -> effects ds t = Some t' ->
  wf t' /\ t_default t' = default_of (t_default t) ds /\
  forall k, table_get t' k = match last_for k (entries ds) with Some d => Some d | None => table_get t k end.
Proof.
  induction ds as [|d ds IH]; intros t t' W E; cbn [effects entries flat_map] in *.
  - injection E as <-. auto.
  - destruct d as [c x|x|]; cbn [effect] in E.
    + destruct (table_put t c x) as [t1 [o|]] eqn:P; [|discriminate].
      assert (K : snd (table_put t c x) <> None) by (now rewrite P).
      destruct (table_put_cases t c x W) as [[X _]|(K0 & U & _)]; [now rewrite X in K|].
      pose proof (wf_put t c x W) as W1. pose proof (table_put_default t c x) as D1.
      pose proof (table_get_put t c x) as G1. rewrite P in W1, D1, G1. cbn [fst] in *.
      destruct (IH _ _ W1 E) as (W2 & D2 & G2). splits; auto.
      * cbn [default_of]. now rewrite D2, D1.
      * intros k. rewrite G2, G1 by auto. fold (entries ds). cbn [app last_for].
        destruct (last_for k (entries ds)); [reflexivity|]. now destruct (k =? c)%N.
    + apply (IH (set_default t x)); auto. now apply wf_set_default.
    + now apply (IH t).
Qed.

Lemma table_capacity_room contents : new_size (Z.of_nat (table_capacity (length contents))) = room contents.
Proof.
  unfold new_size, table_capacity, room, LINE_LENGTH.
  destruct (Nat.ltb_spec (length contents / 6) 500) as [H|H].
  - rewrite Nat.max_l by lia. destruct (Z.leb_spec (Z.of_nat 500) 0); lia.
  - rewrite Nat.max_r by lia. destruct (Z.leb_spec (Z.of_nat (length contents / 6)) 0); lia.
Qed.

Lemma parse_table_effects locale ls j ds contents :
  lines_say locale false ls j ds -> file_of ls contents ->
  parse_table locale contents = Ok (effects ds (table_init (Z.of_nat (table_capacity (length contents))))).
Proof. intros S F. unfold parse_table. eapply loop_ok; eauto. Qed.

Lemma start_table contents :
  let t := table_init (Z.of_nat (table_capacity (length contents))) in
  wf t /\ length (t_rows t) - t_used t = room contents /\ t_default t = None /\ forall k, table_get t k = None.
Proof.
  cbv zeta. splits; auto using wf_init.
  - rewrite table_init_eq. cbn [t_rows t_used]. rewrite repeat_length, table_capacity_room. lia.
  - intros k. destruct (N.eq_dec k 0) as [->|K]; [reflexivity|].
    apply table_get_none_iff; auto using wf_init. rewrite table_init_eq. cbn [t_rows].
    intros i _. rewrite row_at_repeat. cbn. congruence.
Qed.

Theorem parse_documented locale ls j ds contents :
  lines_say locale false ls j ds -> file_of ls contents ->
  ~ In 0%N (map fst (entries ds)) -> length (entries ds) <= room contents ->
  exists t, parse_table locale contents = Ok (Some t) /\
    (forall k, table_get t k = last_for k (entries ds)) /\ t_default t = default_of None ds.
Proof.
  intros S F Z L. rewrite (parse_table_effects _ _ _ _ _ S F).
  destruct (start_table contents) as (W & R & D & G). cbv zeta in *.
  set (t0 := table_init _) in *. clearbody t0.
  destruct (effects ds t0) as [t|] eqn:E.
  - exists t. split; [reflexivity|]. destruct (effects_get _ _ _ W E) as (_ & D' & G').
    rewrite D' , D. split; auto. intros k. rewrite G', G. now destruct (last_for k (entries ds)).
  - exfalso. apply (effects_reject _ _ W) in E. destruct E as [E|E]; [auto|]. rewrite R in E. lia.
Qed.

Theorem parse_rejects locale ls j ds contents :
  lines_say locale false ls j ds -> file_of ls contents ->
  (parse_table locale contents = Ok None <->
   In 0%N (map fst (entries ds)) \/ room contents < length (entries ds)).
Proof.
  intros S F. rewrite (parse_table_effects _ _ _ _ _ S F).
  destruct (start_table contents) as (W & R & _). cbv zeta in *.
  set (t0 := table_init _) in *. clearbody t0.
  rewrite <- R, <- (effects_reject ds t0 W). split; [intros H; now injection H as ->|now intros ->].
Qed.

(** ** Arbitrary files *)

Lemma skip_space_suffix s : forall n r, skip_space s = (n, r) -> exists a, s = a ++ r.
Proof.
  induction s as [|c s IH]; intros n r E; simpl in E.
  - injection E as <- <-. now exists [].
  - destruct (is_space c); [|injection E as <- <-; now exists []].
    destruct (skip_space s) as [m r'] eqn:X. injection E as <- <-. destruct (IH _ _ eq_refl) as [a ->]. now exists (c :: a).
Qed.

Lemma scan_until_split stop s : forall w r, scan_until stop s = (w, r) -> s = w ++ r.
Proof.
  induction s as [|c s IH]; intros w r E; simpl in E.
  - injection E as <- <-. reflexivity.
  - destruct (stop c); [injection E as <- <-; reflexivity|].
    destruct (scan_until stop s) as [w' r'] eqn:X. injection E as <- <-. now rewrite (IH _ _ eq_refl).
Qed.

Lemma scan_s_split s w r : scan_s s = Some (w, r) -> exists a, s = a ++ w ++ r.
Proof.
  unfold scan_s. destruct (skip_space s) as [n q] eqn:E. destruct (skip_space_suffix _ _ _ E) as [a ->].
  destruct q as [|c q]; [discriminate|]. intros H. exists a. f_equal. apply (scan_until_split is_space). now injection H.
Qed.

Lemma scan_word_bounds s w n : scan_word s = Some (w, n) -> length w <= length s /\ n <= length s.
Proof.
  unfold scan_word. destruct (scan_s s) as [[w' r]|] eqn:E; [|discriminate].
  destruct (scan_s_split _ _ _ E) as [a ->]. destruct (skip_space r) as [m r'].
  intros H. injection H as <- <-. split; [|lia]. rewrite !app_length. lia.
Qed.

Lemma scan_int_bounds s z n : scan_int s = inl (z, n) -> n <= length s.
Proof.
  unfold scan_int. destruct (skip_space s) as [m r]. destruct r as [|c r']; [discriminate|].
  match goal with |- (let (_, _) := ?p in _) = _ -> _ => destruct p as [neg q] end.
  destruct (scan_magnitude q) as [[v rest]|]; [|discriminate].
  destruct (skip_space rest) as [m' rest']. intros H. injection H as <- <-. lia.
Qed.

Lemma at_offset_ok work n : n <= length work -> exists r, at_offset work (Some n) = Ok r /\ length r <= length work.
Proof.
  intros H. unfold at_offset. destruct (Nat.leb_spec n (length work)); [|lia]. eexists. split; [reflexivity|].
  rewrite skipn_length. lia.
Qed.

Lemma scan_set_length q s w : scan_set q s = Some w -> length w <= length s.
Proof.
  unfold scan_set. destruct (scan_until (beq q) s) as [w' r] eqn:E. apply scan_until_split in E. subst s. simpl.
  destruct w' as [|c w']; [discriminate|]. intros H. injection H as <-. rewrite app_length. simpl. lia.
Qed.

Lemma scan_text_ok r p : length r <= 1023 -> exists w, scan_text r p = Ok w.
Proof.
  intros L. destruct r as [|c r]; [exists p; reflexivity|]. unfold scan_text.
  assert (Q : forall q, exists w, match scan_set q r with Some w => store_parsed w | None => Ok p end = Ok w).
  { intros q. destruct (scan_set q r) as [w|] eqn:E; [|eauto]. apply scan_set_length in E.
    exists w. apply store_short. simpl in L. lia. }
  destruct (beq c double_quote); [apply Q|]. destruct (beq c single_quote); [apply Q|].
  destruct (scan_s (c :: r)) as [[w r']|] eqn:E; [|eauto]. destruct (scan_s_split _ _ _ E) as [a X].
  exists w. apply store_short. rewrite X, !app_length in L. lia.
Qed.

Lemma line_total locale work st : length work <= 1023 -> exists o, parse_table_line locale work st = Ok o.
Proof.
  intros L. unfold parse_table_line. destruct st as [i off t]. cbn [pt_table pt_inside pt_offset].
  destruct (match work with [] => false | c :: _ => beq c "#" end); [eauto|].
  destruct i; cbn [negb].
  - assert (Q : exists o, (match scan_word work with
       | Some (w, n) => do parsed <- store_parsed w; Ok (Some (mkPt (negb (strncaseeq 5 parsed (bs "end"))) (Some n) t))
       | None => Ok (Some (mkPt true off t)) end) = Ok o).
    { destruct (scan_word work) as [[w n]|] eqn:E; [|eauto]. apply scan_word_bounds in E.
      rewrite store_short by lia. cbn [bind]. eauto. }
    assert (Q' : forall n, exists o, (match scan_word work with
       | Some (w, n) => do parsed <- store_parsed w; Ok (Some (mkPt (negb (strncaseeq 5 parsed (bs "end"))) (Some n) t))
       | None => Ok (Some (mkPt true n t)) end) = Ok o).
    { intros m. destruct (scan_word work) as [[w n]|] eqn:E; [|eauto]. apply scan_word_bounds in E.
      rewrite store_short by lia. cbn [bind]. eauto. }
    destruct (scan_int work) as [[code n]|e] eqn:E.
    + destruct (code <? 0)%Z; [apply Q'|]. apply scan_int_bounds in E.
      destruct (at_offset_ok work n E) as (r & -> & LR). cbn [bind].
      destruct r as [|c r]; [eauto|]. destruct (scan_text_ok (c :: r) [] ltac:(lia)) as [w ->]. cbn [bind].
      destruct (table_put t (Z.to_N code) w) as [t' [o|]]; eauto.
    + change (-1 <? 0)%Z with true. cbv iota. exact Q.
  - destruct (scan_word work) as [[w n]|] eqn:E.
    + apply scan_word_bounds in E. rewrite store_short by lia. cbn [bind].
      destruct (at_offset_ok work n ltac:(lia)) as (r & -> & LR). cbn [bind].
      destruct (strncaseeq 5 w (bs "start")).
      { destruct r as [|c r]; [eauto|]. destruct (scan_text_ok (c :: r) w ltac:(lia)) as [w' ->]. cbn [bind]. eauto. }
      destruct (strncaseeq 7 w (bs "default")); [|eauto].
      destruct r as [|c r]; [eauto|]. destruct (scan_text_ok (c :: r) w ltac:(lia)) as [w' ->]. cbn [bind]. eauto.
    + cbn. eauto.
Qed.

Theorem parse_table_total locale contents : exists o, parse_table locale contents = Ok o.
Proof.
  unfold parse_table. generalize (mkPt false None (table_init (Z.of_nat (table_capacity (length contents))))).
  generalize (length contents) as fuel. intros fuel. revert contents.
  induction fuel as [|fuel IH]; intros contents st; cbn [parse_table_loop]; [eauto|].
  unfold next_line. destruct contents as [|c contents]; [eauto|].
  destruct (fgets_bytes (TABLE_BUFFER - 1) (c :: contents)) as [b r] eqn:E.
  apply fgets_bytes_spec in E. destruct E as (_ & L & _).
  assert (LC : length (cstr b) <= 1023).
  { pose proof (cstr_length b). change (TABLE_BUFFER - 1) with 1023 in L. lia. }
  destruct (line_total locale (cstr b) st LC) as [o ->]. cbn [bind]. destruct o as [st'|]; eauto.
Qed.

(** A parsed table is one of the tables the table functions can build. *)
Lemma line_built locale work st st' : parse_table_line locale work st = Ok (Some st') -> built (pt_table st) -> built (pt_table st').
Proof.
  destruct st as [i off t]. unfold parse_table_line. cbn [pt_table pt_inside pt_offset].
  destruct (match work with [] => false | c :: _ => beq c "#" end); [intros [= <-]; auto|].
  destruct i; cbn [negb].
  - destruct (match scan_int work with inl (code, n) => (code, Some n) | inr _ => ((-1)%Z, off) end) as [code o].
    destruct (code <? 0)%Z.
    + destruct (scan_word work) as [[w n]|].
      * destruct (store_parsed w); cbn [bind]; intros [= <-] B; auto.
      * intros [= <-]; auto.
    + destruct (at_offset work o) as [r| |]; cbn [bind]; [|discriminate|discriminate].
      destruct r as [|c r]; [intros [= <-]; auto|].
      destruct (scan_text (c :: r) []) as [x| |]; cbn [bind]; [|discriminate|discriminate].
      pose proof (built_put t (Z.to_N code) x) as BP.
      destruct (table_put t (Z.to_N code) x) as [t' [o'|]]; [|discriminate].
      intros [= <-] B. cbn [pt_table]. now apply BP.
  - match goal with |- bind ?m _ = _ -> _ => destruct m as [[p o]| |] end; cbn [bind]; [|discriminate|discriminate].
    destruct (strncaseeq 5 p (bs "start")).
    + destruct (at_offset work o) as [r| |]; cbn [bind]; [|discriminate|discriminate].
      destruct r as [|c r]; [intros [= <-]; auto|].
      destruct (scan_text (c :: r) p); cbn [bind]; intros [= <-] B; auto.
    + destruct (strncaseeq 7 p (bs "default")); [|intros [= <-]; auto].
      destruct (at_offset work o) as [r| |]; cbn [bind]; [|discriminate|discriminate].
      destruct r as [|c r]; [intros [= <-] B; now apply built_default|].
      destruct (scan_text (c :: r) p); cbn [bind]; intros [= <-] B; now apply built_default.
Qed.

Theorem parse_table_built locale contents t : parse_table locale contents = Ok (Some t) -> built t.
Proof.
  unfold parse_table.
  assert (B : built (pt_table (mkPt false None (table_init (Z.of_nat (table_capacity (length contents))))))) by apply built_init.
  revert B. generalize (mkPt false None (table_init (Z.of_nat (table_capacity (length contents))))).
  generalize (length contents) as fuel. intros fuel. revert contents.
  induction fuel as [|fuel IH]; intros contents st B; cbn [parse_table_loop]; [intros [= <-]; auto|].
  destruct (next_line contents) as [[b r]|]; [|intros [= <-]; auto].
  destruct (parse_table_line locale (cstr b) st) as [[st'|]| |] eqn:E; cbn [bind]; try discriminate.
  apply IH. eapply line_built; eauto.
Qed.

(** ** Capacity *)

Lemma same_text_length a b : same_text a b -> length a = length b.
Proof. induction 1; simpl; auto. Qed.

Lemma begins_length k w : begins_with k w -> length k <= length w.
Proof. intros (p & q & -> & S). apply same_text_length in S. rewrite app_length. lia. Qed.

Definition lines_length (ls : list str) : nat := length (concat (map (fun l => l ++ [newline]) ls)).

Lemma lines_length_cons l ls : lines_length (l :: ls) = S (length l) + lines_length ls.
Proof. unfold lines_length. cbn [map concat]. rewrite !app_length. simpl. lia. Qed.

Lemma entries_space locale i ls j ds : lines_say locale i ls j ds ->
  Forall (fun l => forall c x, entry_line c x l -> 5 <= length l) ls ->
  6 * length (entries ds) + (if i then 0 else match entries ds with [] => 0 | _ => 6 end) <= lines_length ls.
Proof.
  induction 1 as [i|i l j d ls k ds S H IH]; intros F.
  - unfold lines_length. simpl. destruct i; lia.
  - inversion F as [|l' ls' F1 F2]; subst. specialize (IH F2). rewrite lines_length_cons.
    assert (Q : forall w, begins_with (bs "start") w -> forall a b, l = a ++ w ++ b -> 5 <= length l).
    { intros w B a b ->. apply begins_length in B. rewrite !app_length. change (length (bs "start")) with 5 in B. lia. }
    destruct S; cbn [entries flat_map app length] in *; fold (entries ds) in *; try (destruct i; lia); try (destruct (entries ds); lia).
    + destruct H0 as (a & b & E & _). specialize (Q _ H1 _ _ E). destruct (entries ds); simpl in *; lia.
    + destruct H0 as (a & b & tok & E & _). specialize (Q _ H1 _ _ E). destruct (entries ds); simpl in *; lia.
    + specialize (F1 _ _ H0). lia.
Qed.

Lemma file_length ls contents : file_of ls contents -> lines_length ls <= S (length contents).
Proof.
  intros [_ [->|(ls' & l & -> & _ & ->)]]; unfold lines_length; [lia|].
  rewrite map_app, concat_app, !app_length. cbn [map concat]. rewrite app_nil_r, app_length. cbn [length]. unfold str in *. lia.
Qed.

Theorem long_lines_fit locale ls j ds contents :
  lines_say locale false ls j ds -> file_of ls contents ->
  Forall (fun l => forall c x, entry_line c x l -> 5 <= length l) ls ->
  length (entries ds) <= room contents.
Proof.
  intros S F L. pose proof (entries_space _ _ _ _ _ S L) as H. pose proof (file_length _ _ F) as G.
  unfold room. destruct (entries ds) as [|e es] eqn:E; [simpl; lia|]. rewrite <- E in *.
  assert (6 * length (entries ds) <= length contents) by lia.
  pose proof (Nat.div_le_mono (6 * length (entries ds)) (length contents) 6 ltac:(lia) ltac:(lia)) as D.
  rewrite Nat.mul_comm, Nat.div_mul in D by lia. lia.
Qed.

(** ** Blocks *)

Lemma lines_say_app locale i ls1 j ds1 : lines_say locale i ls1 j ds1 ->
  forall k ls2 ds2, lines_say locale j ls2 k ds2 -> lines_say locale i (ls1 ++ ls2) k (ds1 ++ ds2).
Proof. induction 1; intros; [assumption|]. cbn [app]. econstructor; eauto. Qed.

Lemma entries_app a b : entries (a ++ b) = entries a ++ entries b.
Proof. unfold entries. apply flat_map_app. Qed.

Lemma default_of_app a b d : default_of d (a ++ b) = default_of (default_of d a) b.
Proof. revert d. induction a as [|[c x|x|] a IH]; intros d; simpl; auto. Qed.

Lemma digit_not_blank c d base : (base <= 16)%N -> (d < base)%N -> digit c d -> ~ blank c /\ c <> newline.
Proof.
  intros B L D. destruct (digit_not c d) as [S _]; auto; [lia|].
  split; [intros X; apply blank_space in X; congruence|intros ->; discriminate].
Qed.

Lemma digits_word base s v : (base <= 16)%N -> digits base s v -> Forall (fun c => ~ blank c /\ c <> newline) s.
Proof.
  intros B (ds & F & L & _). induction F as [|c d s ds D F IH]; [constructor|]. inversion L; subst.
  constructor; auto. now apply (digit_not_blank c d base).
Qed.

Lemma not_blank c : is_space c = false -> ~ blank c /\ c <> newline.
Proof. intros H. split; [intros B; apply blank_space in B; congruence|intros ->; discriminate]. Qed.

Lemma numeral_word num v : numeral num v -> word num.
Proof.
  intros [c s v' D N|x s v' X N D|s v' D]; (split; [discriminate|]).
  - apply (digits_word 10 _ _ ltac:(lia) D).
  - constructor; [now apply not_blank|]. constructor; [|apply (digits_word 16 _ _ ltac:(lia) D)].
    destruct X as [-> | ->]; now apply not_blank.
  - constructor; [now apply not_blank|]. apply (digits_word 8 _ _ ltac:(lia) D).
Qed.

Lemma numeral_first num v : numeral num v -> exists c s, num = c :: s /\ In c (bs "0123456789").
Proof.
  intros [c s v' (ds & F & L & _) N|x s v' _ _ _|s v' _].
  - inversion F as [|c' d s' ds' D F']; subst. inversion L; subst. exists c, s. split; auto.
    apply (digit_value_spec 10) in D; auto; [|lia].
    assert (Q : forall c, (match digit_value 10 c with Some _ => existsb (beq c) (bs "0123456789") | None => true end) = true).
    { apply byte_sweep. vm_compute. reflexivity. }
    specialize (Q c). rewrite D in Q. apply existsb_exists in Q. destruct Q as (y & I & Y). apply beq_eq in Y. now subst.
  - exists "0"%byte, (x :: s). split; auto. now left.
  - exists "0"%byte, s. split; auto. now left.
Qed.

Lemma entry_outside locale code text l : entry_line code text l -> says locale false l false Nothing.
Proof.
  intros (a & num & b & tok & -> & A & M & V & B & N & T).
  destruct (numeral_first _ _ M) as (c & s & E & I).
  assert (X : forall y k, ~ In (to_lower y) (map to_lower (bs "0123456789")) -> ~ begins_with (y :: k) num).
  { intros y k Y H. rewrite E in H. apply begins_with_cons in H. destruct H as [H _]. apply same_letter_iff in H.
    apply Y. rewrite <- H. now apply in_map. }
  apply (says_outside locale num).
  - exists a, (b ++ tok). splits; auto; [now apply (numeral_word num code)|].
    right. destruct b as [|c' b]; [easy|]. inversion B; subst. cbn [app]. eauto.
  - apply X. vm_compute. intuition discriminate.
  - apply X. vm_compute. intuition discriminate.
Qed.

Lemma entries_inside locale ls es : Forall2 (fun l e => entry_line (fst e) (snd e) l) ls es ->
  exists ds, lines_say locale true ls true ds /\ entries ds = es /\ forall d, default_of d ds = d.
Proof.
  induction 1 as [|l [c x] ls es H F (ds & S & E & D)].
  - exists []. splits; auto. constructor.
  - exists (Entry c x :: ds). splits; auto.
    + econstructor; [|exact S]. now apply says_entry.
    + cbn [entries flat_map app]. fold (entries ds). now rewrite E.
Qed.

Lemma entries_outside locale ls es : Forall2 (fun l e => entry_line (fst e) (snd e) l) ls es ->
  exists ds, lines_say locale false ls false ds /\ entries ds = [] /\ forall d, default_of d ds = d.
Proof.
  induction 1 as [|l [c x] ls es H F (ds & S & E & D)].
  - exists []. splits; auto. constructor.
  - exists (Nothing :: ds). splits; auto.
    econstructor; [|exact S]. now apply (entry_outside locale c x).
Qed.

Lemma end_outside locale w l : first_word w l -> same_text w (bs "end") -> says locale false l false Nothing.
Proof.
  intros F X. apply same_text_begins in X.
  destruct w as [|c w]; [now apply begins_with_short in X|]. apply begins_with_cons in X. destruct X as [X _]. apply same_letter_iff in X.
  apply (says_outside locale (c :: w)); auto; intros H; apply begins_with_cons in H; destruct H as [H _];
    apply same_letter_iff in H; rewrite X in H; discriminate.
Qed.

(** A block for one language. *)
Lemma block_says locale w lang start ls es wend last :
  text_line w lang start -> begins_with (bs "start") w -> lang <> [] ->
  Forall2 (fun l e => entry_line (fst e) (snd e) l) ls es ->
  first_word wend last -> same_text wend (bs "end") ->
  exists ds, lines_say locale false (start :: ls ++ [last]) false ds /\ (forall d, default_of d ds = d) /\
    (begins_with lang locale -> entries ds = es) /\ (~ begins_with lang locale -> entries ds = []).
Proof.
  intros T S N F W X.
  assert (O : or_word lang w = lang) by (now destruct lang).
  destruct (strncaseeq (length lang) locale lang) eqn:P.
  - apply strncaseeq_prefix in P. destruct (entries_inside locale ls es F) as (ds & L & E & D).
    exists (Nothing :: ds ++ [Nothing]). splits.
    + econstructor; [apply (says_start_yes locale w lang); auto; now rewrite O|].
      eapply lines_say_app; [exact L|]. econstructor; [now apply (says_end locale wend)|constructor].
    + intros d. cbn [default_of]. rewrite default_of_app. simpl. apply D.
    + intros _. change (entries (ds ++ [Nothing]) = es). rewrite entries_app, E. apply app_nil_r.
    + easy.
  - assert (P' : ~ begins_with lang locale) by (intros Q; apply strncaseeq_prefix in Q; congruence).
    destruct (entries_outside locale ls es F) as (ds & L & E & D).
    exists (Nothing :: ds ++ [Nothing]). splits.
    + econstructor; [apply (says_start_no locale w lang); auto; now rewrite O|].
      eapply lines_say_app; [exact L|]. econstructor; [now apply (end_outside locale wend)|constructor].
    + intros d. cbn [default_of]. rewrite default_of_app. simpl. apply D.
    + easy.
    + intros _. change (entries (ds ++ [Nothing]) = []). rewrite entries_app, E. reflexivity.
Qed.

(** ** Comparing tables *)

Definition same_lookup (t1 t2 : table) (k : N) : bool :=
  match table_get t1 k, table_get t2 k with
  | Some a, Some b => str_eqb a b
  | None, None => true
  | _, _ => false
  end.

Lemma lookups_agree t1 t2 : wf t1 -> wf t2 ->
  forallb (same_lookup t1 t2) (row_keys (t_rows t1) ++ row_keys (t_rows t2)) = true ->
  forall k, table_get t1 k = table_get t2 k.
Proof.
  intros W1 W2 H k. rewrite forallb_forall in H.
  assert (S : same_lookup t1 t2 k = true -> table_get t1 k = table_get t2 k).
  { unfold same_lookup. destruct (table_get t1 k), (table_get t2 k); try discriminate; auto.
    intros E. apply str_eqb_eq in E. now subst. }
  destruct (in_dec N.eq_dec k (row_keys (t_rows t1) ++ row_keys (t_rows t2))) as [I|I]; [auto|].
  apply S. destruct (keys_of_row_keys t1 W1) as [_ K1]. destruct (keys_of_row_keys t2 W2) as [_ K2].
  unfold same_lookup. rewrite in_app_iff, K1, K2 in I.
  destruct (table_get t1 k); [exfalso; apply I; left; discriminate|].
  destruct (table_get t2 k); [exfalso; apply I; right; discriminate|]. reflexivity.
Qed.

(** ** The texts of a parsed table are strings that fit the buffer *)

Definition proper_text (d : str) : Prop := nonul d /\ length d <= 1023.

Definition proper_texts (t : table) : Prop :=
  Forall (fun r => forall d, r_data r = Some d -> proper_text d) (t_rows t) /\ forall d, t_default t = Some d -> proper_text d.

Lemma store_parsed_inv w p : store_parsed w = Ok p -> p = w /\ length w <= 1023.
Proof.
  unfold store_parsed. change TABLE_BUFFER with 1024. destruct (Nat.ltb_spec (length w) 1024); [|discriminate]. intros [= <-]. split; [reflexivity|lia].
Qed.

Lemma scan_text_proper r p w : nonul r -> proper_text p -> scan_text r p = Ok w -> proper_text w.
Proof.
  intros N P. destruct r as [|c r]; [intros [= <-]; exact P|]. unfold scan_text.
  assert (Q : forall q, match scan_set q r with Some w => store_parsed w | None => Ok p end = Ok w -> proper_text w).
  { intros q. destruct (scan_set q r) as [x|] eqn:E; [|now intros [= <-]]. intros S. apply store_parsed_inv in S. destruct S as [-> L].
    split; [|exact L]. unfold scan_set in E. destruct (scan_until (beq q) r) as [w' r'] eqn:U. apply scan_until_split in U.
    cbn [fst] in E. destruct w' as [|y w']; [discriminate|]. injection E as <-. apply nonul_cons in N. destruct N as [_ N]. rewrite U in N.
    now apply nonul_app in N. }
  destruct (beq c double_quote); [apply Q|]. destruct (beq c single_quote); [apply Q|].
  destruct (scan_s (c :: r)) as [[x r']|] eqn:E; [|now intros [= <-]]. destruct (scan_s_split _ _ _ E) as [a X].
  intros S. apply store_parsed_inv in S. destruct S as [-> L]. split; [|exact L]. rewrite X in N. rewrite !nonul_app in N. tauto.
Qed.

Lemma at_offset_nonul work o r : nonul work -> at_offset work o = Ok r -> nonul r.
Proof.
  intros N. unfold at_offset. destruct o as [n|]; [|discriminate]. destruct (n <=? length work); [|discriminate]. intros [= <-].
  rewrite <- (firstn_skipn n work) in N. now apply nonul_app in N.
Qed.

Lemma put_proper t k d : proper_texts t -> proper_text d -> proper_texts (fst (table_put t k d)).
Proof.
  intros [F D] P. unfold table_put. destruct (k =? 0)%N; [now split|]. destruct (t_length t =? t_used t); [now split|].
  destruct (put_offset t k) as [off|]; [|now split]. split; [|exact D]. cbn [fst t_rows].
  revert off. induction F as [|x l H F IH]; intros [|off]; cbn [set_row]; constructor; auto. cbn [r_data]. intros d' E. congruence.
Qed.

Lemma line_proper locale work st st' : nonul work -> parse_table_line locale work st = Ok (Some st') ->
  proper_texts (pt_table st) -> proper_texts (pt_table st').
Proof.
  intros NW. assert (P0 : proper_text []) by (split; [apply nonul_nil|simpl; lia]).
  destruct st as [i off t]. unfold parse_table_line. cbn [pt_table pt_inside pt_offset].
  destruct (match work with [] => false | c :: _ => beq c "#" end); [intros [= <-]; auto|].
  destruct i; cbn [negb].
  - destruct (match scan_int work with inl (code, n) => (code, Some n) | inr _ => ((-1)%Z, off) end) as [code o].
    destruct (code <? 0)%Z.
    + destruct (scan_word work) as [[w n]|].
      * destruct (store_parsed w); cbn [bind]; intros [= <-] B; auto.
      * intros [= <-]; auto.
    + destruct (at_offset work o) as [r| |] eqn:A; cbn [bind]; [|discriminate|discriminate]. apply at_offset_nonul in A; auto.
      destruct r as [|c r]; [intros [= <-]; auto|].
      destruct (scan_text (c :: r) []) as [x| |] eqn:S; cbn [bind]; [|discriminate|discriminate]. apply scan_text_proper in S; auto.
      pose proof (put_proper t (Z.to_N code) x) as BP.
      destruct (table_put t (Z.to_N code) x) as [t' [o'|]]; [|discriminate].
      intros [= <-] B. cbn [pt_table]. now apply BP.
  - match goal with |- bind ?m _ = _ -> _ => destruct m as [[p o]| |] eqn:M end; cbn [bind]; [|discriminate|discriminate].
    assert (Pp : proper_text p).
    { destruct (scan_word work) as [[w n]|] eqn:W; [|injection M as <- <-; exact P0].
      destruct (store_parsed w) as [q| |] eqn:S; try discriminate. cbn [bind] in M. injection M as <- <-.
      apply store_parsed_inv in S. destruct S as [-> L]. split; [|exact L]. unfold scan_word in W.
      destruct (scan_s work) as [[w' r']|] eqn:E; [|discriminate]. destruct (scan_s_split _ _ _ E) as [a X].
      destruct (skip_space r'). injection W as <- _. rewrite X, !nonul_app in NW. tauto. }
    destruct (strncaseeq 5 p (bs "start")).
    + destruct (at_offset work o) as [r| |]; cbn [bind]; [|discriminate|discriminate].
      destruct r as [|c r]; [intros [= <-]; auto|].
      destruct (scan_text (c :: r) p); cbn [bind]; intros [= <-] B; auto.
    + destruct (strncaseeq 7 p (bs "default")); [|intros [= <-]; auto].
      destruct (at_offset work o) as [r| |] eqn:A; cbn [bind]; [|discriminate|discriminate]. apply at_offset_nonul in A; auto.
      destruct r as [|c r]; [intros [= <-] B; split; [apply B|discriminate]|].
      destruct (scan_text (c :: r) p) as [x| |] eqn:S; cbn [bind]; intros E B; try discriminate. injection E as <-.
      apply scan_text_proper in S; auto. split; [apply B|]. cbn. intros d [= <-]. exact S.
Qed.

Theorem parse_table_proper locale contents t : parse_table locale contents = Ok (Some t) -> proper_texts t.
Proof.
  unfold parse_table.
  assert (B : proper_texts (pt_table (mkPt false None (table_init (Z.of_nat (table_capacity (length contents))))))).
  { split; [|discriminate]. cbn [pt_table]. rewrite table_init_eq. apply Forall_forall. intros r I d. apply repeat_spec in I. now subst. }
  revert B. generalize (mkPt false None (table_init (Z.of_nat (table_capacity (length contents))))).
  generalize (length contents) as fuel. intros fuel. revert contents.
  induction fuel as [|fuel IH]; intros contents st B; cbn [parse_table_loop]; [intros [= <-]; auto|].
  destruct (next_line contents) as [[b r]|]; [|intros [= <-]; auto].
  destruct (parse_table_line locale (cstr b) st) as [[st'|]| |] eqn:E; cbn [bind]; try discriminate.
  apply IH. eapply line_proper; eauto. apply nonul_cstr.
Qed.

Lemma proper_get t k d : built t -> proper_texts t -> table_get t k = Some d -> proper_text d.
Proof.
  intros B [F _] G. destruct (N.eq_dec k 0) as [->|K]; [discriminate|]. apply table_get_iff in G; [|now apply built_wf|exact K].
  destruct G as (i & L & E). rewrite Forall_forall in F. apply (F (row_at (t_rows t) i)); [now apply nth_In|]. now rewrite E.
Qed.
