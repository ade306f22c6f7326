(** * Proofs about check-table: the specification leaves no choice *)

From Verif Require Import Base BaseFacts Stdio StdioFacts Table TableSpec TableProofs Prog ParseTable ParseTableSpec ParseTableProofs
  TableFileSpec TableFileProofs GenBuiltin GenSpec GenProofs Escape EscapeSpec EscapeProofs EscapeProofs2 EscapeProofs3 MainSpec DumpProofs
  CleanSpec CheckTable CheckSpec CheckProofs.

Local Open Scope nat_scope.

(** ** Numerals *)

Lemma positional_one base ds : forall ds', (0 < base)%N -> length ds = length ds' -> Forall (fun d => d < base)%N ds -> Forall (fun d => d < base)%N ds' ->
  positional base ds = positional base ds' -> ds = ds'.
Proof.
  induction ds as [|d ds IH] using rev_ind; intros ds' B L F F' E.
  - destruct ds'; [reflexivity|discriminate].
  - destruct ds' as [|x l _] using rev_ind.
    { rewrite app_length in L. simpl in L. lia. }
    rewrite !app_length in L. simpl in L. apply Forall_app in F, F'. destruct F as [F Fd], F' as [F' Fd'].
    inversion Fd; subst. inversion Fd'; subst. rewrite !positional_snoc in E.
    assert (X : positional base ds = positional base l /\ d = x).
    { apply (N.div_mod_unique base); [assumption|assumption|]. lia. }
    destruct X as [X ->]. f_equal. apply IH; auto. lia.
Qed.

Lemma positional_below base ds : (0 < base)%N -> Forall (fun d => d < base)%N ds -> (positional base ds < base ^ N.of_nat (length ds))%N.
Proof.
  intros B. induction ds as [|d ds IH] using rev_ind; intros F; [cbn; lia|]. apply Forall_app in F. destruct F as [F Fd]. inversion Fd; subst.
  rewrite positional_snoc, app_length. cbn [length]. rewrite Nat.add_1_r, Nat2N.inj_succ, N.pow_succ_r'. specialize (IH F). nia.
Qed.

Lemma positional_above base d ds : (0 < base)%N -> d <> 0%N -> (base ^ N.of_nat (length ds) <= positional base (d :: ds))%N.
Proof.
  intros B D. induction ds as [|x ds IH] using rev_ind; [cbn; lia|].
  change (d :: ds ++ [x]) with ((d :: ds) ++ [x]). rewrite positional_snoc, app_length. cbn [length]. rewrite Nat.add_1_r, Nat2N.inj_succ, N.pow_succ_r'. nia.
Qed.

Lemma zero_digit c : digit c 0 -> c = "0"%byte.
Proof. intros [D|D]; injection D as <-; reflexivity. Qed.

(** What is given by a number and the count of its digits. *)
Lemma digits_bounds base c s v : (0 < base)%N -> c <> "0"%byte -> digits base (c :: s) v ->
  (base ^ N.of_nat (length s) <= v < base ^ N.of_nat (S (length s)))%N.
Proof.
  intros B NZ (ds & D & F & ->). pose proof (positional_below base ds B F) as U. rewrite <- (Forall2_same_length _ _ _ D) in U. cbn [length] in U.
  split; [|exact U]. inversion D as [|? d ? ds' Dc D']; subst. assert (L : length s = length ds') by exact (Forall2_same_length _ _ _ D'). rewrite L. apply positional_above; [exact B|].
  intros ->. apply NZ. now apply zero_digit.
Qed.

Lemma same_length base n m v : (1 < base)%N -> (base ^ N.of_nat n <= v < base ^ N.of_nat (S n))%N -> (base ^ N.of_nat m <= v < base ^ N.of_nat (S m))%N -> n = m.
Proof.
  intros B [A1 A2] [B1 B2]. destruct (Nat.lt_trichotomy n m) as [L|[E|L]]; [exfalso|exact E|exfalso].
  - pose proof (N.pow_le_mono_r base (N.of_nat (S n)) (N.of_nat m) ltac:(lia) ltac:(lia)). lia.
  - pose proof (N.pow_le_mono_r base (N.of_nat (S m)) (N.of_nat n) ltac:(lia) ltac:(lia)). lia.
Qed.

Lemma decimal_fun c c' d : (d < 10)%N -> digit c d -> digit c' d -> c = c'.
Proof.
  intros L. assert (X : forall c, digit c d -> nth_error (bs "0123456789abcdef") (N.to_nat d) = Some c).
  { intros x [D|D]; [exact D|]. assert (E : exists n, n < 10 /\ N.to_nat d = n) by (exists (N.to_nat d); split; [lia|reflexivity]).
    destruct E as (n & Ln & E). rewrite E in *. do 10 (destruct n as [|n]; [exact D|]). lia. }
  intros D D'. apply X in D, D'. congruence.
Qed.

Lemma shortest_one v s s' : shortest v s -> shortest v s' -> s' = s.
Proof.
  assert (Z : forall s, digits 10 s v -> s = bs "0" -> v = 0%N).
  { intros x (ds & D & _ & ->) ->. inversion D as [|? d ? ds' Dc D']; subst. inversion D'; subst. destruct Dc as [X|X].
    - destruct (N.to_nat d) as [|n] eqn:E; [assert (d = 0%N) by lia; subst; reflexivity|]. do 15 (destruct n as [|n]; [discriminate X|]). destruct n; discriminate X.
    - destruct (N.to_nat d) as [|n] eqn:E; [assert (d = 0%N) by lia; subst; reflexivity|]. do 15 (destruct n as [|n]; [discriminate X|]). destruct n; discriminate X. }
  assert (P : forall c r, digits 10 (c :: r) v -> c <> "0"%byte -> v <> 0%N).
  { intros c r D NZ E. pose proof (digits_bounds 10 c r v ltac:(lia) NZ D) as [X _]. pose proof (N.pow_nonzero 10 (N.of_nat (length r)) ltac:(lia)). lia. }
  intros [D [->|(c & r & -> & NZ)]] [D' [->|(c' & r' & -> & NZ')]].
  - reflexivity.
  - exfalso. apply (P _ _ D' NZ'). exact (Z _ D eq_refl).
  - exfalso. apply (P _ _ D NZ). exact (Z _ D' eq_refl).
  - pose proof (same_length 10 _ _ v ltac:(lia) (digits_bounds 10 c r v ltac:(lia) NZ D) (digits_bounds 10 c' r' v ltac:(lia) NZ' D')) as L.
    destruct D as (ds & D & F & E), D' as (ds' & D' & F' & E').
    assert (X : ds' = ds).
    { apply (positional_one 10); auto; [lia| |congruence]. rewrite <- (Forall2_same_length _ _ _ D), <- (Forall2_same_length _ _ _ D'). cbn [length]. f_equal. symmetry. exact L. }
    subst ds'. clear -D D' F. set (s := c :: r) in *. set (s' := c' :: r') in *. clearbody s s'. revert s' D'.
    induction D as [|x d s ds Dc D IH]; intros s' D'; inversion D'; subst; [reflexivity|]. inversion F; subst. f_equal; [eapply decimal_fun; eauto|auto].
Qed.

Lemma hex_length v ds : digits 16 ds v -> length ds = 4 \/ (4 < length ds /\ exists c r, ds = c :: r /\ c <> "0"%byte) ->
  (length ds = 4%nat /\ v < 16 ^ 4 \/ 16 ^ 4 <= v /\ exists n, length ds = S n /\ 16 ^ N.of_nat n <= v < 16 ^ N.of_nat (S n))%N.
Proof.
  intros D [L|(L & c & r & -> & NZ)].
  - left. split; [exact L|]. destruct D as (xs & D & F & ->). pose proof (positional_below 16 xs ltac:(lia) F) as U.
    rewrite <- (Forall2_same_length _ _ _ D), L in U. exact U.
  - right. pose proof (digits_bounds 16 c r v ltac:(lia) NZ D) as X. cbn [length] in L. split.
    + assert (Y : forall n, 4 < S n -> (16 ^ N.of_nat n <= v)%N -> (16 ^ 4 <= v)%N).
      { intros n Ln Hn. pose proof (N.pow_le_mono_r 16 4 (N.of_nat n) ltac:(lia) ltac:(lia)). lia. }
      exact (Y _ L (proj1 X)).
    + exists (length r). split; [reflexivity|exact X].
Qed.

Lemma in_hex_one big v s s' : in_hex big v s -> in_hex big v s' -> s' = s.
Proof.
  intros (ds & -> & D & C & L) (ds' & -> & D' & C' & L'). f_equal.
  assert (E : length ds' = length ds).
  { destruct (hex_length v ds D L) as [[A B]|(A & n & B & B')], (hex_length v ds' D' L') as [[A' X]|(A' & n' & X & X')].
    - congruence.
    - exfalso. lia.
    - exfalso. lia.
    - rewrite (same_length 16 n n' v) in B; auto; [congruence|lia]. }
  destruct big.
  - exact (digits_text _ _ _ v upper_fun C' C E D' D).
  - exact (digits_text _ _ _ v lower_fun C' C E D' D).
Qed.

Theorem printed_one percent r x x' : printed percent r x -> printed percent r x' -> x' = x.
Proof.
  intros P P'. destruct P; inversion P'; subst; auto;
    repeat match goal with
    | A : in_hex ?b ?v ?s, B : in_hex ?b ?v ?s' |- _ => assert_fails (constr_eq s s'); rewrite (in_hex_one b v s s' A B) in *; clear B
    | A : shortest ?v ?s, B : shortest ?v ?s' |- _ => assert_fails (constr_eq s s'); rewrite (shortest_one v s s' A B) in *; clear B
    end; auto.
Qed.

Lemma printed_all percent rs out : Forall2 (printed percent) rs out -> forall out', Forall2 (printed percent) rs out' -> out' = out.
Proof.
  intros F. induction F as [|r x rs out P F IH]; intros out' F'; inversion F'; subst; [reflexivity|].
  f_equal; [eapply printed_one; eauto|auto].
Qed.

(** ** Rows *)

Lemma split_here {A} (a : list A) x b a' x' b' : a ++ x :: b = a' ++ x' :: b' -> length a = length a' -> a = a' /\ x = x' /\ b = b'.
Proof.
  revert a'. induction a as [|y a IH]; intros [|y' a'] E L; cbn [app length] in *; try lia.
  - injection E as -> ->. auto.
  - injection E as -> E. destruct (IH a' E ltac:(lia)) as (-> & -> & ->). auto.
Qed.

Lemma split_before {A} (a : list A) x b a' x' b' : a ++ x :: b = a' ++ x' :: b' -> length a < length a' -> In x a' /\ In x' b.
Proof.
  revert a'. induction a as [|y a IH]; intros [|y' a'] E L; cbn [app length] in *; try lia.
  - injection E as -> E. split; [now left|]. rewrite E. apply in_or_app. right. now left.
  - injection E as -> E. destruct (IH a' E ltac:(lia)) as [I J]. split; [now right|exact J].
Qed.

Definition codes (rows : list (option (N * str))) : list N := map fst (in_rows rows).

Lemma codes_app a b : codes (a ++ b) = codes a ++ codes b.
Proof. unfold codes, in_rows. now rewrite flat_map_app, map_app. Qed.

Lemma codes_in rows k : In k (codes rows) <-> exists d, In (Some (k, d)) rows.
Proof.
  unfold codes. rewrite in_map_iff. split.
  - intros ([x d] & E & I). cbn in E. subst x. exists d. now apply flat_in.
  - intros (d & I). exists (k, d). split; [reflexivity|]. now apply flat_in.
Qed.

Lemma goes_codes hash k d rows rows' : goes hash k d rows rows' -> NoDup (codes rows) -> NoDup (codes rows').
Proof.
  assert (X : forall a b, (forall d', ~ In (Some (k, d')) (a ++ b)) -> NoDup (codes (a ++ None :: b)) -> NoDup (codes (a ++ Some (k, d) :: b))).
  { intros a b NI ND. rewrite codes_app in *. change (codes (None :: b)) with (codes b) in ND. change (codes (Some (k, d) :: b)) with (k :: codes b).
    apply (NoDup_Add (Add_app k (codes a) (codes b))). split; [exact ND|]. rewrite <- codes_app. intros I. apply codes_in in I. destruct I as (e & I). now apply (NI e). }
  intros G. destruct G as [a e b|a b _ _ NI|a b _ NI _]; auto. now rewrite !codes_app.
Qed.

Lemma goes_one hash k d rows rows1 rows2 : NoDup (codes rows) -> goes hash k d rows rows1 -> goes hash k d rows rows2 -> rows2 = rows1.
Proof.
  intros ND G1 G2.
  assert (IN : forall a (x : str) b, In (Some (k, x)) (a ++ None :: b) -> In (Some (k, x)) (a ++ b)).
  { intros a x b I. apply in_or_app. apply in_app_or in I. destruct I as [I|[I|I]]; [now left|discriminate|now right]. }
  inversion G1 as [a e b R1 R1'|a b H L NI R1 R1'|a b NN NI H R1 R1'];
  inversion G2 as [a' e' b' R2 R2'|a' b' H' L' NI' R2 R2'|a' b' NN' NI' H' R2 R2'].
  - assert (E : a ++ Some (k, e) :: b = a' ++ Some (k, e') :: b') by congruence.
    assert (L : length a = length a').
    { assert (TW : forall u x v y, rows = u ++ Some (k, x) :: v -> ~ In (Some (k, y)) u /\ ~ In (Some (k, y)) v).
      { intros u x v y ->. rewrite codes_app in ND. change (codes (Some (k, x) :: v)) with (k :: codes v) in ND. apply NoDup_remove_2 in ND.
        split; intros I; apply ND; apply in_or_app; [left|right]; apply codes_in; eauto. }
      destruct (Nat.lt_trichotomy (length a) (length a')) as [X|[X|X]]; [exfalso|exact X|exfalso].
      - destruct (split_before _ _ _ _ _ _ E X) as [I _]. symmetry in R2. now apply (TW _ _ _ e R2) in I.
      - symmetry in E. destruct (split_before _ _ _ _ _ _ E X) as [I _]. symmetry in R1. now apply (TW _ _ _ e' R1) in I. }
    destruct (split_here _ _ _ _ _ _ E L) as (-> & _ & ->). reflexivity.
  - exfalso. apply (NI' e). apply IN. rewrite R2, <- R1. apply in_or_app. right. now left.
  - exfalso. apply (NI' e). apply IN. rewrite R2, <- R1. apply in_or_app. right. now left.
  - exfalso. apply (NI e'). apply IN. rewrite R1, <- R2. apply in_or_app. right. now left.
  - rewrite R1 in L. rewrite R2 in L'. assert (E : a ++ None :: b = a' ++ None :: b') by congruence.
    destruct (split_here _ _ _ _ _ _ E ltac:(congruence)) as (-> & _ & ->). reflexivity.
  - exfalso. rewrite R1 in L. rewrite R2 in H'. apply (H' H). rewrite <- L, <- R1. apply nth_error_here.
  - exfalso. apply (NI e'). apply IN. rewrite R1, <- R2. apply in_or_app. right. now left.
  - exfalso. rewrite R2 in L'. rewrite R1 in H. apply (H H'). rewrite <- L', <- R2. apply nth_error_here.
  - assert (E : a ++ None :: b = a' ++ None :: b') by congruence.
    assert (L : length a = length a').
    { destruct (Nat.lt_trichotomy (length a) (length a')) as [X|[X|X]]; [exfalso|exact X|exfalso].
      - now destruct (split_before _ _ _ _ _ _ E X).
      - symmetry in E. now destruct (split_before _ _ _ _ _ _ E X). }
    destruct (split_here _ _ _ _ _ _ E L) as (-> & _ & ->). reflexivity.
Qed.

Lemma fill_one hash h : forall rows rows1 rows2, NoDup (codes rows) -> fill hash rows h rows1 -> fill hash rows h rows2 -> rows2 = rows1.
Proof.
  induction h as [|[k d] h IH]; intros rows rows1 rows2 ND F1 F2; inversion F1; inversion F2; subst; [reflexivity|].
  match goal with A : goes _ _ _ rows ?x, B : goes _ _ _ rows ?y |- _ => assert (E : y = x) by (eapply goes_one; eauto); subst y end.
  eapply IH; [|eauto|eauto]. eapply goes_codes; eauto.
Qed.

Lemma codes_empty n : codes (repeat None n) = [].
Proof. induction n; auto. Qed.

Lemma laid_out_one hash size h rows rows' : laid_out hash size h rows -> laid_out hash size h rows' -> rows' = rows.
Proof. apply fill_one. rewrite codes_empty. constructor. Qed.

Lemma sought_one hash rows ks n : sought hash rows ks n -> forall n', sought hash rows ks n' -> n' = n.
Proof.
  intros S. induction S as [|k ks n H A S IH|k ks n H S IH]; intros n' S'; inversion S' as [|? ? ? H' A' S2|? ? ? H' S2]; subst; auto.
  - exfalso. now apply H'.
  - exfalso. now apply H.
Qed.

(** ** Reports *)

Lemma greatest_one ds k k' : greatest ds k -> greatest ds k' -> k' = k.
Proof.
  intros [A B] [A' B']. rewrite Forall_forall in A, A'.
  assert (X : forall a b, (forall e, In e (entries ds) -> (fst e <= b)%N) -> In a (map fst (entries ds)) -> (a <= b)%N).
  { intros a b H I. apply in_map_iff in I. destruct I as (e & <- & I). auto. }
  destruct B as [->|B], B' as [->|B']; auto.
  - apply (X _ _ A) in B'. lia.
  - apply (X _ _ A') in B. lia.
  - apply (X _ _ A) in B'. apply (X _ _ A') in B. lia.
Qed.

Lemma codes_of_some ds : exists ks, codes_of ds ks.
Proof.
  exists (nodup N.eq_dec (map fst (entries ds))). split; [apply NoDup_nodup|]. intros k. apply nodup_In.
Qed.

Lemma summary_eq s s' : su_rows s' = su_rows s -> su_used s' = su_used s -> su_hits s' = su_hits s -> su_seeks s' = su_seeks s ->
  su_overwrites s' = su_overwrites s -> su_longest s' = su_longest s -> su_default s' = su_default s -> su_greatest s' = su_greatest s -> s' = s.
Proof. destruct s as [a b c d e f g h], s' as [a' b' c' d' e' f' g' h']. cbn. intros. now subst. Qed.

Lemma plain_summary_one hash ds size s s' : plain_summary hash ds size s -> plain_summary hash ds size s' -> s' = s.
Proof.
  intros (_ & _ & L & U & H & S & O & G & D & M) (_ & _ & L' & U' & H' & S' & O' & G' & D' & M').
  destruct (codes_of_some ds) as (ks & C). specialize (O ks C). specialize (O' ks C).
  pose proof (laid_out_one _ _ _ _ _ L L') as E. rewrite E in S'. pose proof (sought_one _ _ _ _ S _ S') as E2. pose proof (greatest_one _ _ _ M M') as E3.
  apply summary_eq; try congruence; lia.
Qed.

Lemma builtin_summary_one hash ds size looked s s' : builtin_summary hash ds size looked s -> builtin_summary hash ds size looked s' -> s' = s.
Proof.
  intros (_ & _ & (r & L & L2) & H & S & O & G & G2 & D & M) (_ & _ & (r' & L' & L2') & H' & S' & O' & G' & G2' & D' & M').
  destruct (codes_of_some ds) as (ks & C). specialize (O ks C). specialize (O' ks C).
  pose proof (laid_out_one _ _ _ _ _ L L') as E. subst r'. pose proof (laid_out_one _ _ _ _ _ L2 L2') as E. rewrite E in S'.
  pose proof (sought_one _ _ _ _ S _ S') as E2. pose proof (greatest_one _ _ _ M M') as E3.
  assert (X : su_longest s' = su_longest s).
  { rewrite E in *. rewrite Forall_forall in G, G'. destruct G2 as [G2|(k & d & I & G2)], G2' as [G2'|(k' & d' & I' & G2')].
    - congruence.
    - specialize (G _ I'). cbn in G. lia.
    - specialize (G' _ I). cbn in G'. lia.
    - specialize (G _ I'). specialize (G' _ I). cbn in G, G'. lia. }
  apply summary_eq; try congruence; lia.
Qed.

(** ** Both passes *)

Lemma first_pass_one file rs res : first_pass file rs res -> forall rs' res', first_pass file rs' res' -> rs' = rs /\ res' = res.
Proof.
  intros F rs' res' F'. destruct F as [|m|contents ps rs P R|contents ps rs ds P R]; inversion F' as [| |? ps' ? P' R'|? ps' ? ds' P' R']; subst; auto;
    pose proof (pieces_unique _ _ _ P P'); subst ps'; destruct (review_one _ _ _ _ _ _ R _ _ R') as [E1 E2]; subst; try discriminate; auto.
  injection E2 as ->. auto.
Qed.

Theorem recheck_one lookup i ps rs res : recheck lookup i ps rs res -> forall rs' res', recheck lookup i ps rs' res' -> rs' = rs /\ res' = res.
Proof.
  intros R. induction R as [i|p s w c r lang ps rs res V H S T R IH|p s code text ps rs res V M K R IH|p s code text ps V M K
    |i p s j d ps rs res V M NE NB R IH]; intros rs' res' R'.
  - now inversion R'.
  - inversion R' as [|? s' w' c' r' lang' ? rs2 res2 V' H' S' T' R2| | |? ? s' j' d' ? rs2 res2 V' M' NE' NB' R2]; subst; same_line.
    + injection H1 as -> ->. rewrite (language_one _ _ _ _ _ _ H T T'). destruct (IH _ _ R2) as [-> ->]. auto.
    + exfalso. apply NB'. split; [reflexivity|]. now exists w, c, r.
  - inversion R' as [| |? s' code' text' ? rs2 res2 V' M' K' R2|? s' code' text' ? V' M' K'|? ? s' j' d' ? rs2 res2 V' M' NE' NB' R2]; subst; same_line.
    + destruct (IH _ _ R2) as [-> ->]. auto.
    + exfalso. auto.
    + exfalso. now apply (NE' code text).
  - inversion R' as [| |? s' code' text' ? rs2 res2 V' M' K' R2|? s' code' text' ? V' M' K'|? ? s' j' d' ? rs2 res2 V' M' NE' NB' R2]; subst; same_line.
    + exfalso. auto.
    + auto.
    + exfalso. now apply (NE' code text).
  - inversion R' as [|? s' w' c' r' lang' ? rs2 res2 V' H' S' T' R2|? s' code' text' ? rs2 res2 V' M' K' R2|? s' code' text' ? V' M' K'|? ? s' j' d' ? rs2 res2 V' M' NE' NB' R2]; subst; same_line.
    + exfalso. apply NB. split; [reflexivity|]. now exists w', c', r'.
    + exfalso. now apply (NE code' text').
    + exfalso. now apply (NE code' text').
    + destruct (IH _ _ R2) as [-> ->]. auto.
Qed.

Theorem checked_one o name first second rs res : checked o name first second rs res ->
  forall rs' res', checked o name first second rs' res' -> rs' = rs /\ res' = res.
Proof.
  intros C rs' res' C'. inversion C; inversion C'; subst; try congruence;
    repeat match goal with
    | A : first_pass first ?x ?r, B : first_pass first ?x' ?r' |- _ =>
      assert_fails (constr_eq A B); destruct (first_pass_one _ _ _ A _ _ B) as [? EE]; clear B; try discriminate; try (injection EE as ? ?); subst
    | A : pieces ?c ?ps, B : pieces ?c ?ps' |- _ => assert_fails (constr_eq A B); pose proof (pieces_unique _ _ _ A B); clear B; subst
    | A : Readable _ = Readable _ |- _ => injection A as A; subst
    | A : Locked _ = Locked _ |- _ => injection A as A; subst
    | A : recheck ?l ?i ?ps ?x ?r, B : recheck ?l ?i ?ps ?x' ?r' |- _ =>
      assert_fails (constr_eq A B); destruct (recheck_one _ _ _ _ _ A _ _ B) as [? EE]; clear B; try discriminate; try (injection EE as ?); subst
    | A : plain_summary ?h ?d ?z ?s, B : plain_summary ?h ?d ?z ?s' |- _ => assert_fails (constr_eq A B); pose proof (plain_summary_one _ _ _ _ _ A B); clear B; subst
    | A : builtin_summary ?h ?d ?z ?k ?s, B : builtin_summary ?h ?d ?z ?k ?s' |- _ =>
      assert_fails (constr_eq A B); pose proof (builtin_summary_one _ _ _ _ _ _ A B); clear B; subst
    end; auto; try discriminate.
Qed.

(** ** The command line *)

Lemma arguments_one posix args ls fs : arguments posix args ls fs -> forall ls' fs', arguments posix args ls' fs' -> ls' = ls /\ fs' = fs.
Proof.
  intros A. induction A as [|rest|c s rest ls fs N A IH|a rest ls fs P N A IH|a rest P N]; intros ls' fs' A'.
  - inversion A'; auto.
  - inversion A' as [|? X|c' s' ? ? ? N' A2|? ? ? ? P' N' A2|? ? P' N']; subst; auto.
    + exfalso. now apply N'.
    + exfalso. now apply (N' "-"%byte []).
    + exfalso. now apply (N' "-"%byte []).
  - inversion A' as [|? X|c' s' ? ? ? N' A2|? ? ? ? P' N' A2|? ? P' N']; subst; auto.
    + exfalso. now apply N.
    + destruct (IH _ _ A2) as [-> ->]. auto.
    + exfalso. now apply (N' c s).
    + exfalso. now apply (N' c s).
  - inversion A' as [|? X|c' s' ? ? ? N' A2|? ? ? ? P' N' A2|? ? P' N']; subst; auto.
    + exfalso. now apply (N "-"%byte []).
    + exfalso. now apply (N c' s').
    + destruct (IH _ _ A2) as [-> ->]. auto.
    + discriminate.
  - inversion A' as [|? X|c' s' ? ? ? N' A2|? ? ? ? P' N' A2|? ? P' N']; subst; auto.
    + exfalso. now apply (N "-"%byte []).
    + exfalso. now apply (N c' s').
    + discriminate.
Qed.

Lemma wished_one ls o o' : wished ls o -> wished ls o' -> o' = o.
Proof.
  intros (A & B & C & D) (A' & B' & C' & D'). destruct o as [b1 b2 b3 b4], o' as [c1 c2 c3 c4]. cbn [k_builtin k_dump k_hash k_verbose] in *.
  rewrite <- A in A'. rewrite <- B in B'. rewrite <- C in C'. rewrite <- D in D'. clear A B C D.
  f_equal; [destruct b1, c1|destruct b2, c2|destruct b3, c3|destruct b4, c4]; try reflexivity; exfalso; intuition congruence.
Qed.

(** The first letter that is not harmless. *)
Lemma first_harm ls c ls' : Forall harmless ls -> ~ harmless c -> forall ms d ms', Forall harmless ms -> ~ harmless d ->
  ls ++ c :: ls' = ms ++ d :: ms' -> c = d.
Proof.
  intros F NC. induction F as [|x ls H F IH]; intros ms d ms' G ND E.
  - destruct G as [|y ms Hy G]; cbn [app] in E; injection E as <- _; [reflexivity|contradiction].
  - destruct G as [|y ms Hy G]; cbn [app] in E; injection E as <- E; [contradiction|]. eapply IH; eauto.
Qed.

Lemma harmless_not ls c ls' : ~ harmless c -> ~ Forall harmless (ls ++ c :: ls').
Proof. intros N F. rewrite Forall_forall in F. apply N, F. apply in_or_app. right. now left. Qed.

Lemma h_not_harmless : ~ harmless "h"%byte.
Proof. unfold harmless. simpl. intuition discriminate. Qed.

Theorem check_session_one percent posix args first second out res : check_session percent posix args first second out res ->
  forall out' res', check_session percent posix args first second out' res' -> out' = out /\ res' = res.
Proof.
  intros C out' res' C'. pose proof h_not_harmless as HH.
  destruct C as [ls ls1 fs A F|ls c ls1 fs A F N NH|ls A F|ls f fs o rs out res A F W K P];
  inversion C' as [ls' ls1' fs' A' F' X Y|ls' c' ls1' fs' A' F' N' NH' X Y|ls' A' F' X Y|ls' f' fs' o' rs' out2 res2 A' F' W' K' P']; subst;
    destruct (arguments_one _ _ _ _ A _ _ A') as [EL EF]; try discriminate; subst; auto;
    try (exfalso; eapply harmless_not; [|eassumption]; eassumption).
  - exfalso. apply NH'. symmetry. eapply first_harm; [exact F|exact HH|exact F'|exact N'|symmetry; exact EL].
  - exfalso. apply NH. symmetry. eapply first_harm; [exact F'|exact HH|exact F|exact N|exact EL].
  - injection EF as -> ->. pose proof (wished_one _ _ _ W W'). subst o'. destruct (checked_one _ _ _ _ _ _ K _ _ K') as [-> ->].
    split; [|reflexivity]. eapply printed_all; eauto.
Qed.

Theorem check_main_exact percent posix args first second out res :
  check_session percent posix args first second out res <-> check_main percent posix args first second = (out, res).
Proof.
  pose proof (check_main_session percent posix args first second) as S. split.
  - intros C. destruct (check_session_one _ _ _ _ _ _ _ C _ _ S) as [<- <-]. now destruct (check_main percent posix args first second).
  - intros E. rewrite E in S. exact S.
Qed.
