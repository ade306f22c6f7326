(** * The generated scanner follows the rules of src/config_file_lex.l *)

From Verif Require Import Base BaseFacts Stdio StdioFacts ParseTableSpec ConfigLex ConfigSpec ConfigLexProofs ConfigParse
  ParserTables FlexScanner.

Local Open Scope nat_scope.

(** ** The automaton, without the buffer *)

Definition dstep (s : Z) (b : byte) : res Z :=
  do c <- (if beq b NUL then Ok 1%Z else tbl yy_ec (Z.of_N (bN b))); yy_transition s c.

Definition delta (s : Z) (b : byte) : Z := match dstep s b with Ok x => x | _ => (-1)%Z end.
Definition accept (s : Z) : Z := match tbl yy_accept s with Ok a => a | _ => 0%Z end.

Definition jam : Z := 110.
Definition goodb (s : Z) : bool := ((1 <=? s) && (s <=? 109) && negb (s =? 2) && negb (s =? 3))%Z.
Definition good (s : Z) : Prop := goodb s = true.
Definition states : list Z := filter goodb (map Z.of_nat (seq 0 110)).

Lemma states_in s : good s -> In s states.
Proof.
  intros G. unfold states. apply filter_In. split; [|exact G]. apply in_map_iff. exists (Z.to_nat s).
  unfold good, goodb in G. rewrite !andb_true_iff in G. destruct G as [[[A B] _] _].
  apply Z.leb_le in A, B. split; [lia|]. apply in_seq. lia.
Qed.

Lemma state_sweep (P : Z -> bool) : forallb P states = true -> forall s, good s -> P s = true.
Proof. intros H s G. rewrite forallb_forall in H. apply H. now apply states_in. Qed.

Lemma sweep2 (P : Z -> byte -> bool) : forallb (fun s => forallb (P s) all_bytes) states = true ->
  forall s b, good s -> P s b = true.
Proof.
  intros H s b G. rewrite forallb_forall in H. specialize (H s (states_in s G)).
  rewrite forallb_forall in H. apply H. apply all_bytes_in.
Qed.

Definition is_ok (r : res Z) (p : Z -> bool) : bool := match r with Ok x => p x | _ => false end.

Lemma is_ok_true r p : is_ok r p = true -> exists x, r = Ok x /\ p x = true.
Proof. destruct r; simpl; try discriminate. eauto. Qed.

Lemma dstep_good s b : good s -> exists s', dstep s b = Ok s' /\ (good s' \/ s' = jam).
Proof.
  intros G.
  pose proof (sweep2 (fun s b => is_ok (dstep s b) (fun x => goodb x || (x =? jam)%Z)) ltac:(vm_compute; reflexivity) s b G) as H.
  apply is_ok_true in H. destruct H as (x & -> & H). apply orb_true_iff in H. rewrite Z.eqb_eq in H. eauto.
Qed.

Lemma dstep_delta s b : good s -> dstep s b = Ok (delta s b) /\ (good (delta s b) \/ delta s b = jam).
Proof. intros G. destruct (dstep_good s b G) as (x & E & H). unfold delta. rewrite E. auto. Qed.

Lemma dstep_jam b : dstep jam b = Ok jam.
Proof.
  assert (H : is_ok (dstep jam b) (fun x => (x =? jam)%Z) = true).
  { revert b. apply byte_sweep. vm_compute. reflexivity. }
  apply is_ok_true in H. destruct H as (x & E & H). apply Z.eqb_eq in H. now subst.
Qed.

Lemma delta_jam b : delta jam b = jam.
Proof. unfold delta. now rewrite dstep_jam. Qed.

(** The end-of-buffer character leads to state 3, whatever follows to the jam. *)
Lemma eob_good s : good s -> yy_transition s 0 = Ok 3%Z.
Proof.
  intros G.
  pose proof (state_sweep (fun s => is_ok (yy_transition s 0) (fun x => (x =? 3)%Z)) ltac:(vm_compute; reflexivity) s G) as H.
  apply is_ok_true in H. destruct H as (x & -> & H). apply Z.eqb_eq in H. now subst.
Qed.

Lemma eob_jam b : (do c <- tbl yy_ec (Z.of_N (bN b)); yy_transition 3 c) = Ok jam.
Proof.
  assert (H : is_ok (do c <- tbl yy_ec (Z.of_N (bN b)); yy_transition 3 c) (fun x => (x =? jam)%Z) = true).
  { revert b. apply byte_sweep. vm_compute. reflexivity. }
  apply is_ok_true in H. destruct H as (x & E & H). apply Z.eqb_eq in H. now subst.
Qed.

Lemma ec_ok b : exists c, tbl yy_ec (Z.of_N (bN b)) = Ok c.
Proof.
  assert (H : is_ok (tbl yy_ec (Z.of_N (bN b))) (fun _ => true) = true).
  { revert b. apply byte_sweep. vm_compute. reflexivity. }
  apply is_ok_true in H. destruct H as (x & E & _). eauto.
Qed.

Lemma base_good s : good s -> exists k, tbl yy_base s = Ok k.
Proof.
  intros G. pose proof (state_sweep (fun s => is_ok (tbl yy_base s) (fun _ => true)) ltac:(vm_compute; reflexivity) s G) as H.
  apply is_ok_true in H. destruct H as (x & E & _). eauto.
Qed.

Lemma accept_good s : good s -> tbl yy_accept s = Ok (accept s) /\ (0 <= accept s <= 23)%Z.
Proof.
  intros G.
  pose proof (state_sweep (fun s => is_ok (tbl yy_accept s) (fun x => (0 <=? x) && (x <=? 23))%Z) ltac:(vm_compute; reflexivity) s G) as H.
  apply is_ok_true in H. destruct H as (x & E & H). unfold accept. rewrite E.
  apply andb_true_iff in H. destruct H as [A B]. apply Z.leb_le in A, B. auto.
Qed.

Lemma accept_jam : tbl yy_accept jam = Ok 0%Z /\ accept jam = 0%Z.
Proof. vm_compute. auto. Qed.

(** A state that stops the scanner at once: nothing follows, and it accepts. *)
Lemma base_dead s k b : good s -> tbl yy_base s = Ok k -> k = 234%Z -> delta s b = jam /\ accept s <> 0%Z.
Proof.
  intros G E ->.
  pose proof (sweep2 (fun s b => negb (is_ok (tbl yy_base s) (fun x => (x =? 234)%Z)) || ((delta s b =? jam) && negb (accept s =? 0))%Z)
                ltac:(vm_compute; reflexivity) s b G) as H.
  cbv beta in H. rewrite E in H. simpl in H. apply andb_true_iff in H. destruct H as [A B].
  apply Z.eqb_eq in A. apply negb_true_iff, Z.eqb_neq in B. auto.
Qed.

(** Every byte leads from the start to an accepting state. *)
Lemma first_step b : good (delta 1 b) /\ accept (delta 1 b) <> 0%Z.
Proof.
  assert (H : (goodb (delta 1 b) && negb (accept (delta 1 b) =? 0)%Z)%bool = true).
  { revert b. apply byte_sweep. vm_compute. reflexivity. }
  apply andb_true_iff in H. destruct H as [A B]. apply negb_true_iff, Z.eqb_neq in B. auto.
Qed.

Lemma good_start : good 1. Proof. reflexivity. Qed.
Lemma good_not_jam s : good s -> s <> jam. Proof. intros H ->. discriminate. Qed.

(** ** The states passed on the way *)

Fixpoint notes (s : Z) (last : last_accepting) (cp : nat) (u : list byte) : Z * last_accepting :=
  match u with
  | [] => (s, last)
  | b :: r => notes (delta s b) (if (accept s =? 0)%Z then last else Some (s, cp)) (S cp) r
  end.

Lemma notes_app u : forall s last cp v,
  notes s last cp (u ++ v) = let '(s', last') := notes s last cp u in notes s' last' (cp + length u) v.
Proof.
  induction u as [|b u IH]; intros s last cp v; simpl.
  - now rewrite Nat.add_0_r.
  - rewrite IH. replace (S cp + length u) with (cp + S (length u)) by lia. reflexivity.
Qed.

Lemma notes_jam u : forall last cp, notes jam last cp u = (jam, last).
Proof. induction u as [|b u IH]; intros last cp; simpl; [easy|]. now rewrite delta_jam, IH. Qed.

Lemma notes_state u : forall s last cp last' cp', fst (notes s last cp u) = fst (notes s last' cp' u).
Proof. induction u as [|b u IH]; intros; simpl; auto. Qed.

Lemma notes_good u : forall s last cp, good s \/ s = jam -> good (fst (notes s last cp u)) \/ fst (notes s last cp u) = jam.
Proof.
  induction u as [|b u IH]; intros s last cp G; simpl; [easy|]. apply IH. destruct G as [G| ->].
  - now apply dstep_delta.
  - right. apply delta_jam.
Qed.

Lemma previous_state u : forall s last cp, good s \/ s = jam -> yy_get_previous_state s last cp u = Ok (notes s last cp u).
Proof.
  induction u as [|b u IH]; intros s last cp G; simpl; [easy|].
  assert (D : dstep s b = Ok (delta s b) /\ (good (delta s b) \/ delta s b = jam)).
  { destruct G as [G| ->]; [now apply dstep_delta|]. rewrite dstep_jam, delta_jam. auto. }
  assert (A : tbl yy_accept s = Ok (accept s)).
  { destruct G as [G| ->]; [now apply accept_good|]. destruct accept_jam as [-> ->]. reflexivity. }
  destruct D as [D G']. unfold note_accepting. rewrite A. unfold dstep in D.
  destruct (if beq b NUL then Ok 1%Z else tbl yy_ec (Z.of_N (bN b))); simpl in *; try discriminate.
  rewrite D. simpl. now apply IH.
Qed.

(** The longest prefix that some rule accepts. *)
Definition answer (input : list byte) : last_accepting :=
  let '(s, last) := notes 1 None 0 input in
  if (accept s =? 0)%Z then last else Some (s, length input).

Lemma answer_jam u v last : notes 1 None 0 u = (jam, last) -> answer (u ++ v) = last.
Proof.
  intros E. unfold answer. rewrite notes_app, E, notes_jam. destruct accept_jam as [_ ->]. reflexivity.
Qed.

Lemma answer_dead u v s last k : notes 1 None 0 u = (s, last) -> good s -> tbl yy_base s = Ok k -> k = 234%Z ->
  answer (u ++ v) = Some (s, length u).
Proof.
  intros E G B K. destruct v as [|b v].
  - rewrite app_nil_r. unfold answer. rewrite E. destruct (base_dead s k NUL G B K) as [_ A].
    apply Z.eqb_neq in A. now rewrite A.
  - unfold answer. rewrite notes_app, E. simpl. destruct (base_dead s k b G B K) as [D A].
    apply Z.eqb_neq in A. rewrite D, A, notes_jam. destruct accept_jam as [_ ->]. reflexivity.
Qed.

(** After at least one byte some accepting state has been passed or reached. *)
Lemma notes_some u : forall s last cp, good s \/ s = jam -> last <> None \/ accept s <> 0%Z ->
  snd (notes s last cp u) <> None \/ accept (fst (notes s last cp u)) <> 0%Z.
Proof.
  induction u as [|b u IH]; intros s last cp G H; simpl; [easy|].
  apply IH.
  - destruct G as [G| ->]; [now apply dstep_delta|]. right. apply delta_jam.
  - left. destruct (Z.eqb_spec (accept s) 0) as [E|E]; [|easy]. destruct H; [easy|congruence].
Qed.

Lemma notes_first b u : snd (notes 1 None 0 (b :: u)) <> None \/ accept (fst (notes 1 None 0 (b :: u))) <> 0%Z.
Proof.
  simpl. apply notes_some.
  - left. apply first_step.
  - right. apply first_step.
Qed.

(** The starting value of [last] matters only as long as nothing accepts. *)
Lemma notes_last u : forall s last last' cp,
  snd (notes s last cp u) = snd (notes s last' cp u) \/ (snd (notes s last cp u) = last /\ snd (notes s last' cp u) = last').
Proof.
  induction u as [|b u IH]; intros s last last' cp; simpl; [auto|].
  destruct (accept s =? 0)%Z; [apply IH|]. left. reflexivity.
Qed.

(** What the state [last] may be when the automaton has read [u]. *)
Definition last_ok (u : list byte) (last : last_accepting) : Prop :=
  snd (notes 1 None 0 u) = None \/ last = snd (notes 1 None 0 u).

Lemma last_ok_any u last : last_ok u (snd (notes 1 last 0 u)).
Proof.
  unfold last_ok. destruct (notes_last u 1 last None 0) as [E|[_ E]]; auto.
Qed.

Lemma last_ok_app u v s l last : notes 1 None 0 u = (s, l) -> last_ok u last ->
  last_ok (u ++ v) (snd (notes s last (length u) v)).
Proof.
  unfold last_ok. intros E. rewrite notes_app, E. simpl. intros [N| ->]; [subst|auto].
  destruct (notes_last v s last None (length u)) as [A|[_ A]]; auto.
Qed.

(** ** The loop at yy_match *)

Lemma base_jam : tbl yy_base jam = Ok 234%Z. Proof. reflexivity. Qed.
Lemma base_eob : tbl yy_base 3 = Ok 225%Z. Proof. reflexivity. Qed.
Lemma accept_eob : tbl yy_accept 3 = Ok 24%Z. Proof. reflexivity. Qed.
Lemma ec_nul : tbl yy_ec (Z.of_N (bN NUL)) = Ok 0%Z. Proof. reflexivity. Qed.

Lemma match_nul s last cp b rest : good s ->
  yy_match s last cp (NUL :: b :: rest) = Ok (jam, cp + 2, Some (3%Z, cp + 1)).
Proof.
  intros G. cbn [yy_match]. rewrite ec_nul. cbn [bind]. unfold note_accepting at 1.
  destruct (accept_good s G) as [-> _]. cbn [bind]. rewrite (eob_good s G). cbn [bind].
  rewrite base_eob. cbn [bind Z.eqb Pos.eqb].
  pose proof (eob_jam b) as J. destruct (ec_ok b) as (c & Ec). rewrite Ec in *. cbn [bind] in *.
  unfold note_accepting. rewrite accept_eob. cbn [bind Z.eqb]. rewrite J. cbn [bind]. rewrite base_jam. cbn [bind Z.eqb Pos.eqb].
  replace (cp + 2) with (S (S cp)) by lia. replace (cp + 1) with (S cp) by lia. reflexivity.
Qed.

Lemma match_spec w : forall s last cp, good s -> exists u v, w = u ++ v /\ nonul u /\
  ((u <> [] /\ tbl yy_base (fst (notes s last cp u)) = Ok 234%Z /\
    yy_match s last cp (w ++ EOBs) = Ok (fst (notes s last cp u), cp + length u, snd (notes s last cp u))) \/
   ((v = [] \/ exists v', v = NUL :: v') /\ good (fst (notes s last cp u)) /\
    yy_match s last cp (w ++ EOBs) = Ok (jam, cp + length u + 2, Some (3%Z, cp + length u + 1)))).
Proof.
  induction w as [|b w IH]; intros s last cp G.
  - exists [], []. split; [easy|]. split; [apply nonul_nil|]. right. split; [auto|]. split; [exact G|].
    cbn [app length]. rewrite Nat.add_0_r. apply match_nul; exact G.
  - destruct (byte_dec b NUL) as [->|Nb].
    + exists [], (NUL :: w). split; [easy|]. split; [apply nonul_nil|]. right. split; [eauto|]. split; [exact G|].
      cbn [length]. rewrite Nat.add_0_r. destruct w as [|c w]; cbn [app EOBs]; now apply match_nul.
    + destruct (dstep_delta s b G) as [D G']. cbn [app yy_match].
      unfold dstep in D. apply beq_neq in Nb. rewrite Nb in D. apply beq_neq in Nb.
      destruct (tbl yy_ec (Z.of_N (bN b))) as [c| |]; cbn [bind] in *; try discriminate.
      unfold note_accepting. destruct (accept_good s G) as [-> _]. cbn [bind]. rewrite D. cbn [bind].
      destruct G' as [G'|J].
      * destruct (base_good _ G') as (k & K). rewrite K. cbn [bind]. destruct (Z.eqb_spec k 234) as [->|Nk].
        -- exists [b], w. split; [easy|]. split; [now apply nonul_cons; split; [|apply nonul_nil]|].
           left. split; [easy|]. cbn [notes fst snd length]. split; [exact K|].
           replace (cp + 1) with (S cp) by lia. reflexivity.
        -- destruct (IH (delta s b) (if (accept s =? 0)%Z then last else Some (s, cp)) (S cp) G')
             as (u & v & -> & NU & H).
           exists (b :: u), v. split; [easy|]. split; [now apply nonul_cons|]. cbn [notes length].
           replace (cp + S (length u)) with (S cp + length u) by lia.
           destruct H as [(U & B & M)|H]; [left|right; exact H]. split; [easy|]. split; [exact B|exact M].
      * exists [b], w. split; [easy|]. split; [now apply nonul_cons; split; [|apply nonul_nil]|].
        left. split; [easy|]. cbn [notes fst snd length]. rewrite J. rewrite base_jam. split; [reflexivity|].
        cbn [bind Z.eqb Pos.eqb]. replace (cp + 1) with (S cp) by lia. reflexivity.
Qed.

(** ** The buffer *)

(** What the scanner has still to scan. *)
Definition data (y : scanner) : list byte := skipn (y_text y) (y_chars y).
Definition input (y : scanner) : list byte := data y ++ y_unread y.

Definition sound (y : scanner) : Prop :=
  y_text y <= length (y_chars y) /\ (Z.of_nat (length (y_chars y)) <= y_size y)%Z /\ (1 <= y_size y)%Z /\
  (y_status y = B_eof_pending -> y_unread y = []).

Definition reads_ok (reads : reader) : Prop :=
  forall unread max, (0 < max)%Z -> unread <> [] -> 1 <= reads unread max /\ (Z.of_nat (reads unread max) <= max)%Z.

Lemma notes_pos u : forall s last cp st n, good s \/ s = jam -> snd (notes s last cp u) = Some (st, n) ->
  last = Some (st, n) \/ (cp <= n < cp + length u /\ good st /\ accept st <> 0%Z).
Proof.
  induction u as [|b u IH]; intros s last cp st n G H; simpl in *; [auto|].
  assert (G' : good (delta s b) \/ delta s b = jam).
  { destruct G as [G| ->]; [now apply dstep_delta|]. right. apply delta_jam. }
  destruct (IH _ _ _ _ _ G' H) as [E|(L & X)]; [|right; split; [lia|exact X]].
  destruct (Z.eqb_spec (accept s) 0) as [A|A]; [auto|]. injection E as <- <-. right. split; [lia|].
  destruct G as [G| ->]; [auto|]. exfalso. apply A. apply accept_jam.
Qed.

Lemma notes_start_pos u st n : snd (notes 1 None 0 u) = Some (st, n) -> 1 <= n < length u /\ good st /\ accept st <> 0%Z.
Proof.
  destruct u as [|b u]; [discriminate|]. simpl. intros H.
  apply notes_pos in H; [|left; apply first_step]. destruct H as [H|(A & B)]; [discriminate|]. split; [lia|exact B].
Qed.

(** The result of a round: the longest match. *)
Definition delivers (y : scanner) (r : res (matched * scanner)) : Prop :=
  exists st n y', answer (input y) = Some (st, n) /\ 1 <= n <= length (input y) /\ good st /\ accept st <> 0%Z /\
    r = Ok (M_rule (accept st) (firstn n (input y)), y') /\ sound y' /\ input y' = skipn n (input y).

Lemma skipn_add {A} (l : list A) a b : skipn (a + b) l = skipn b (skipn a l).
Proof. revert l. induction a as [|a IH]; intros l; [easy|]. destruct l as [|x l]; simpl; [now rewrite skipn_nil|apply IH]. Qed.

Lemma scan_find reads fuel y last P v s : sound y -> data y = P ++ v -> P <> [] ->
  fst (notes 1 None 0 P) = s -> (accept s = 0%Z -> last_ok P last) ->
  answer (input y) = (if (accept s =? 0)%Z then snd (notes 1 None 0 P) else Some (s, length P)) ->
  delivers y (yy_scan reads (S fuel) (L_find s (length P)) last y).
Proof.
  intros (S1 & S2 & S3 & S4) D NP E L A.
  assert (G : good s \/ s = jam).
  { rewrite <- E. apply notes_good. left. apply good_start. }
  assert (F : exists st n, answer (input y) = Some (st, n) /\ 1 <= n <= length P /\ good st /\ accept st <> 0%Z /\
            yy_find_action s (length P) last = Ok (accept st, st, n)).
  { unfold yy_find_action. destruct (Z.eqb_spec (accept s) 0) as [Z0|Z0].
    - assert (X : snd (notes 1 None 0 P) <> None).
      { destruct P as [|b P]; [easy|]. destruct (notes_first b P) as [X|X]; [exact X|]. rewrite E in X. easy. }
      destruct (snd (notes 1 None 0 P)) as [[st n]|] eqn:En; [|easy].
      destruct (notes_start_pos _ _ _ En) as (B & Gs & As). exists st, n. split; [exact A|]. split; [lia|].
      split; [exact Gs|]. split; [exact As|].
      assert (La : last = Some (st, n)) by (destruct (L Z0); congruence). subst last.
      assert (Ts : tbl yy_accept s = Ok 0%Z).
      { destruct G as [G| ->]; [|apply accept_jam]. destruct (accept_good s G) as [-> _]. now rewrite Z0. }
      rewrite Ts. simpl. destruct (accept_good st Gs) as [-> _]. reflexivity.
    - destruct G as [G| ->]; [|exfalso; apply Z0; apply accept_jam].
      exists s, (length P). split; [exact A|]. destruct P; [easy|]. split; [simpl; lia|]. split; [exact G|]. split; [exact Z0|].
      destruct (accept_good s G) as [-> _]. simpl bind. apply Z.eqb_neq in Z0. now rewrite Z0. }
  destruct F as (st & n & An & B & Gs & As & Ff). exists st, n, (set_text (y_text y + n) y).
  assert (LP : length P <= length (data y)) by (rewrite D, app_length; lia).
  assert (LD : length (data y) = length (y_chars y) - y_text y) by apply skipn_length.
  split; [exact An|]. split; [unfold input; rewrite app_length; lia|]. split; [exact Gs|]. split; [exact As|]. split; [|split].
  - cbn [yy_scan]. rewrite Ff. cbn [bind]. destruct (accept_good st Gs) as [_ R].
    apply Z.eqb_neq in As. rewrite As. replace (accept st <=? 23)%Z with true by (symmetry; apply Z.leb_le; lia).
    do 3 f_equal. unfold input. rewrite skipn_app. fold (data y).
    rewrite !firstn_app. replace (n - length (data y)) with 0 by lia. reflexivity.
  - unfold sound, set_text. simpl. splits; auto; lia.
  - unfold input, data, set_text. simpl. rewrite skipn_add, skipn_app. fold (data y).
    replace (n - length (data y)) with 0 by lia. reflexivity.
Qed.

(** *** Refilling *)

Ltac triv := first [reflexivity | assumption | discriminate | contradiction | congruence].

Lemma grow_ok fuel : forall size move, (0 <= move <= 2 ^ 30 - 2)%Z -> (1 <= size)%Z -> (move + 2 <= size * 2 ^ Z.of_nat fuel)%Z ->
  exists size', yy_grow fuel size move = Ok size' /\ (size <= size')%Z /\ (move + 2 <= size')%Z.
Proof.
  induction fuel as [|fuel IH]; intros size move M S F; cbn [yy_grow].
  - destruct (Z.ltb_spec 0 (size - move - 1)); [|simpl in F; lia]. exists size. split; [triv|]. lia.
  - destruct (Z.ltb_spec 0 (size - move - 1)) as [L|L].
    + exists size. split; [triv|]. lia.
    + destruct (Z.ltb_spec INT_MAX (size * 2)) as [X|X]; [unfold INT_MAX in X; lia|].
      destruct (IH (size * 2)%Z move M ltac:(lia)) as (size' & E & A & B).
      * rewrite Nat2Z.inj_succ, Z.pow_succ_r in F by lia. lia.
      * exists size'. split; [exact E|]. lia.
Qed.

Lemma data_length y : sound y -> length (data y) + y_text y = length (y_chars y).
Proof. intros (A & _). unfold data. rewrite skipn_length. lia. Qed.

Lemma next_buffer reads y : reads_ok reads -> sound y -> (Z.of_nat (length (data y)) <= 2 ^ 30 - 2)%Z ->
  (y_unread y = [] /\ data y = [] /\ exists size, (1 <= size)%Z /\
     yy_get_next_buffer reads (length (data y) + 1) y = Ok (EOB_ACT_END_OF_FILE, yy_flushed size [])) \/
  (y_unread y = [] /\ data y <> [] /\ exists y2, sound y2 /\ y_chars y2 = data y /\ y_text y2 = 0 /\ y_unread y2 = [] /\
     yy_get_next_buffer reads (length (data y) + 1) y = Ok (EOB_ACT_LAST_MATCH, y2)) \/
  (exists got, got <> [] /\ exists y2, sound y2 /\ y_chars y2 = data y ++ got /\ y_text y2 = 0 /\ y_unread y = got ++ y_unread y2 /\
     yy_get_next_buffer reads (length (data y) + 1) y = Ok (EOB_ACT_CONTINUE_SCAN, y2)).
Proof.
  intros R S M. pose proof (data_length y S) as L. destruct S as (S1 & S2 & S3 & S4).
  unfold yy_get_next_buffer.
  replace (length (y_chars y) + 1 <? y_text y + (length (data y) + 1)) with false by (symmetry; apply Nat.ltb_ge; lia).
  replace (length (data y) + 1 - 1) with (length (data y)) by lia. fold (data y). rewrite firstn_all.
  set (body := match y_status y with B_eof_pending => _ | _ => _ end).
  assert (B : exists size got, body = Ok (size, got, skipn (length got) (y_unread y)) /\ firstn (length got) (y_unread y) = got /\
            (1 <= size)%Z /\ (Z.of_nat (length (data y ++ got)) <= size)%Z /\ (y_unread y <> [] -> got <> [] /\ y_status y <> B_eof_pending)).
  { unfold body.
    assert (N : y_status y <> B_eof_pending -> exists size got,
      (do size <- yy_grow 32 (y_size y) (Z.of_nat (length (data y)));
       let num_to_read := Z.min (size - Z.of_nat (length (data y)) - 1) YY_READ_BUF_SIZE in
       let n := reads (y_unread y) num_to_read in Ok (size, firstn n (y_unread y), skipn n (y_unread y))) =
      Ok (size, got, skipn (length got) (y_unread y)) /\ firstn (length got) (y_unread y) = got /\
      (1 <= size)%Z /\ (Z.of_nat (length (data y ++ got)) <= size)%Z /\ (y_unread y <> [] -> got <> [] /\ y_status y <> B_eof_pending)).
    { intros NP. destruct (grow_ok 32 (y_size y) (Z.of_nat (length (data y)))) as (size & E & A & B).
      - lia.
      - lia.
      - change (2 ^ Z.of_nat 32)%Z with 4294967296%Z. lia.
      - rewrite E. cbn [bind]. set (mx := Z.min _ _). set (n := reads _ _).
        assert (MX : (0 < mx)%Z) by (unfold mx, YY_READ_BUF_SIZE; lia).
        exists size, (firstn n (y_unread y)).
        destruct (y_unread y) as [|c r] eqn:EU.
        + rewrite firstn_nil, !skipn_nil. split; [triv|]. split; [triv|]. rewrite app_nil_r. split; [lia|]. split; [lia|triv].
        + assert (NE : c :: r <> []) by discriminate.
          destruct (R (c :: r) mx MX NE) as [R1 R2]. change (reads (c :: r) mx) with n in R1, R2.
          assert (LG : length (firstn n (c :: r)) = Nat.min n (length (c :: r))) by apply firstn_length.
          assert (FS : firstn (length (firstn n (c :: r))) (c :: r) = firstn n (c :: r) /\
                       skipn (length (firstn n (c :: r))) (c :: r) = skipn n (c :: r)).
          { rewrite LG. destruct (Nat.le_ge_cases n (length (c :: r))) as [H|H].
            - rewrite Nat.min_l by exact H. auto.
            - rewrite Nat.min_r by exact H. rewrite firstn_all, skipn_all, firstn_all2, skipn_all2 by exact H. auto. }
          destruct FS as [-> ->]. split; [triv|]. split; [triv|]. split; [lia|]. split.
          * rewrite app_length, LG. unfold mx in R2. lia.
          * intros _. split; [|exact NP]. destruct n; [lia|]. simpl. triv. }
    destruct (y_status y) eqn:ES.
    - apply N. triv.
    - apply N. triv.
    - exists (y_size y), []. rewrite (S4 eq_refl). split; [triv|]. split; [triv|]. split; [lia|]. split; [rewrite app_nil_r; lia|triv]. }
  destruct B as (size & got & -> & F & A1 & A2 & A3). cbn [bind].
  assert (U : y_unread y = got ++ skipn (length got) (y_unread y)) by (rewrite <- F at 1; symmetry; apply firstn_skipn).
  replace (size <? Z.of_nat (length (data y ++ got)))%Z with false by (symmetry; apply Z.ltb_ge; lia).
  destruct got as [|g got].
  - assert (EU : y_unread y = []) by (destruct (y_unread y); [triv|]; destruct A3; triv).
    rewrite EU. simpl skipn. destruct (data y) as [|d dl] eqn:ED.
    + left. split; [triv|]. split; [triv|]. exists size. split; [exact A1|]. reflexivity.
    + right; left. split; [triv|]. split; [triv|].
      exists (mkScanner ((d :: dl) ++ []) 0 size B_eof_pending []). unfold sound. cbn [y_chars y_text y_size y_status y_unread].
      split; [splits; auto; lia|]. split; [now rewrite app_nil_r|]. auto.
  - right; right. exists (g :: got). split; [triv|].
    exists (mkScanner (data y ++ g :: got) 0 size (y_status y) (skipn (length (g :: got)) (y_unread y))).
    unfold sound. cbn [y_chars y_text y_size y_status y_unread].
    split; [|auto]. splits; auto; [lia|]. intros X. exfalso. destruct A3 as [_ A3]; [|triv].
    rewrite U. triv.
Qed.

(** *** From yy_match to the next action *)

Definition small (y : scanner) : Prop := (Z.of_nat (length (input y)) <= 2 ^ 30 - 2)%Z.

Definition ends (r : res (matched * scanner)) : Prop :=
  exists size, (1 <= size)%Z /\ r = Ok (M_eof, yy_flushed size []).

Definition result (y : scanner) (r : res (matched * scanner)) : Prop :=
  (input y = [] /\ ends r) \/ (input y <> [] /\ delivers y r).

Lemma delivers_eq y y' r : input y = input y' -> delivers y r -> delivers y' r.
Proof. unfold delivers. now intros <-. Qed.

Lemma result_eq y y' r : input y = input y' -> result y r -> result y' r.
Proof. unfold result. intros E [H|[A B]]; rewrite <- E; [auto|]. right. split; [triv|]. now apply (delivers_eq y). Qed.

Definition renew (y : scanner) : scanner := match y_status y with B_new => set_status B_normal y | _ => y end.

Lemma renew_facts y : sound y -> sound (renew y) /\ data (renew y) = data y /\ y_unread (renew y) = y_unread y /\
  input (renew y) = input y /\ y_text (renew y) = y_text y /\ y_chars (renew y) = y_chars y.
Proof.
  intros (A & B & C & D). unfold renew. destruct (y_status y) eqn:E.
  - unfold sound, set_status, input, data. simpl. splits; auto; try lia. discriminate.
  - unfold sound. rewrite E. splits; auto; lia.
  - unfold sound. rewrite E. splits; auto; lia.
Qed.

Lemma skipn_length_app {A} (u v : list A) : skipn (length u) (u ++ v) = v.
Proof. induction u; simpl; auto. Qed.

Lemma scan_match_eq reads fuel s cp last y : yy_scan reads (S fuel) (L_match s cp) last y =
  do r <- yy_match s last cp (skipn (y_text y + cp) (y_chars y ++ EOBs));
  let '(s', cp', last') := r in yy_scan reads fuel (L_find s' cp') last' y.
Proof. reflexivity. Qed.

Lemma scan_match reads : reads_ok reads -> forall fuel y last cp s,
  2 * (length (data y) - cp) + 4 * length (y_unread y) + 4 <= fuel ->
  sound y -> small y -> cp <= length (data y) ->
  fst (notes 1 None 0 (firstn cp (data y))) = s -> good s -> last_ok (firstn cp (data y)) last ->
  result y (yy_scan reads fuel (L_match s cp) last y).
Proof.
  intros R fuel. induction fuel as [fuel IH] using lt_wf_ind. intros y last cp s F S M C E G L.
  destruct fuel as [|[|fuel]]; try lia.
  set (P := firstn cp (data y)) in *. set (w := skipn cp (data y)).
  assert (D : data y = P ++ w) by (symmetry; apply firstn_skipn).
  assert (LP : length P = cp) by (unfold P; rewrite firstn_length; lia).
  destruct (match_spec w s last cp G) as (u & v & W & NU & H).
  assert (BUF : skipn (y_text y + cp) (y_chars y ++ EOBs) = w ++ EOBs).
  { rewrite skipn_add, skipn_app. fold (data y). pose proof (data_length y S). 
    replace (y_text y - length (y_chars y)) with 0 by lia. rewrite skipn_app. replace (cp - length (data y)) with 0 by lia. reflexivity. }
  pose proof (last_ok_app P u s (snd (notes 1 None 0 P)) last ltac:(now rewrite <- E; destruct (notes 1 None 0 P)) L) as LU.
  rewrite LP in LU.
  assert (FU : fst (notes 1 None 0 (P ++ u)) = fst (notes s last cp u)).
  { rewrite notes_app. destruct (notes 1 None 0 P) as [s0 l0]. simpl in E. subst s0. apply notes_state. }
  rewrite scan_match_eq, BUF.
  destruct H as [(U & B & Mt)|(V & G' & Mt)]; rewrite Mt; cbn [bind].
  - (* stopped *)
    right. split.
    { unfold input. rewrite D, W. destruct u; [triv|]. destruct P; triv. }
    replace (cp + length u) with (length (P ++ u)) by (rewrite app_length; lia).
    apply (scan_find reads fuel y _ (P ++ u) v); auto.
    + rewrite D, W. apply app_assoc.
    + intros X. apply app_eq_nil in X. destruct X. contradiction.
    + unfold input. rewrite D, W, app_assoc, <- app_assoc.
      destruct (notes 1 None 0 (P ++ u)) as [s1 l1] eqn:N1. simpl in FU.
      assert (G1 : good s1 \/ s1 = jam).
      { replace s1 with (fst (notes 1 None 0 (P ++ u))) by now rewrite N1. apply notes_good. left. apply good_start. }
      rewrite <- FU in B. rewrite <- FU. destruct G1 as [G1| ->].
      * rewrite (answer_dead _ _ _ _ _ N1 G1 B eq_refl).
        destruct (base_dead s1 _ NUL G1 B eq_refl) as [_ A]. apply Z.eqb_neq in A. now rewrite A.
      * rewrite (answer_jam _ _ _ N1). destruct accept_jam as [_ ->]. reflexivity.
  - (* a NUL *)
    cbn [yy_scan]. unfold yy_find_action at 1. destruct accept_jam as [-> _]. cbn [bind Z.eqb].
    rewrite accept_eob. cbn [bind Z.eqb Z.leb Z.compare Pos.compare Pos.compare_cont Pos.eqb].
    fold (renew y). destruct (renew_facts y S) as (S1 & D1 & U1 & I1 & T1 & C1).
    replace (cp + length u + 1 - 1) with (cp + length u) by lia.
    pose proof (data_length y S) as DL. rewrite T1, C1. fold (data y).
    assert (LD : length (data y) = cp + length u + length v) by (rewrite D, W, !app_length; lia).
    assert (FP : firstn (cp + length u) (data y) = P ++ u).
    { rewrite D, W, app_assoc. replace (cp + length u) with (length (P ++ u)) by (rewrite app_length; lia). apply app_firstn. }
    destruct V as [->|(v' & ->)].
    + (* the end of the buffer *)
      rewrite app_nil_r in W. simpl in LD.
      replace (y_text y + (cp + length u + 1) <=? length (y_chars y)) with false by (symmetry; apply Nat.leb_gt; lia).
      replace (cp + length u + 1) with (length (data (renew y)) + 1) by (rewrite D1; lia).
      assert (M1 : (Z.of_nat (length (data (renew y))) <= 2 ^ 30 - 2)%Z).
      { unfold small, input in M. rewrite app_length in M. rewrite D1. lia. }
      destruct (next_buffer reads (renew y) R S1 M1) as [(EU & ED & size & A & NB)|[(EU & ED & y2 & S2 & C2 & T2 & U2 & NB)|(got & NG & y2 & S2 & C2 & T2 & U2 & NB)]];
        rewrite NB; cbn [bind].
      * left. split.
        -- unfold input. rewrite <- D1, ED, <- U1, EU. reflexivity.
        -- exists size. auto.
      * rewrite previous_state by (left; apply good_start). cbn [bind]. rewrite C2, D1.
        right. assert (IE : input y = data y) by (unfold input; rewrite <- U1, EU; apply app_nil_r).
        split; [now rewrite IE, <- D1|].
        destruct fuel as [|fuel]; [lia|].
        assert (D2 : data y2 = data y) by (unfold data at 1; now rewrite T2, C2, D1).
        assert (I2 : input y2 = data y) by (unfold input; rewrite D2, U2; apply app_nil_r).
        apply (delivers_eq y2); [now rewrite IE|].
        apply (scan_find reads fuel y2 _ (data y) []); auto.
        -- now rewrite app_nil_r.
        -- now rewrite <- D1.
        -- apply notes_state.
        -- intros _. apply last_ok_any.
        -- rewrite I2. unfold answer. rewrite (notes_state (data y) 1 _ 0 None 0).
           destruct (notes 1 None 0 (data y)); reflexivity.
      * rewrite previous_state by (left; apply good_start). cbn [bind].
        assert (F2 : firstn (cp + length u) (y_chars y2) = P ++ u).
        { rewrite C2, D1, firstn_app, FP. replace (cp + length u - length (data y)) with 0 by lia. apply app_nil_r. }
        rewrite F2.
        assert (D2 : data y2 = data y ++ got) by (unfold data at 1; now rewrite T2, C2, D1).
        apply (result_eq y2).
        { unfold input. rewrite D2, <- U1, U2. symmetry. apply app_assoc. }
        assert (LU2 : length (y_unread y) = length got + length (y_unread y2)) by (rewrite <- U1, U2, app_length; reflexivity).
        assert (LG : 1 <= length got) by (destruct got; [triv|simpl; lia]).
        apply IH.
        -- lia.
        -- rewrite D2, app_length. lia.
        -- exact S2.
        -- unfold small. replace (input y2) with (input y); [exact M|].
           unfold input. rewrite D2, <- U1, U2. apply app_assoc.
        -- rewrite D2, app_length. lia.
        -- rewrite D2, firstn_app, FP. replace (cp + length u - length (data y)) with 0 by lia. simpl firstn. rewrite app_nil_r.
           apply notes_state.
        -- rewrite (notes_state (P ++ u) 1 _ 0 None 0), FU. exact G'.
        -- rewrite D2, firstn_app, FP. replace (cp + length u - length (data y)) with 0 by lia. simpl firstn. rewrite app_nil_r.
           apply last_ok_any.
    + (* a NUL in the text *)
      simpl in LD.
      replace (y_text y + (cp + length u + 1) <=? length (y_chars y)) with true by (symmetry; apply Nat.leb_le; lia).
      rewrite FP. rewrite previous_state by (left; apply good_start). cbn [bind].
      set (N := notes 1 (Some (3%Z, cp + length u + 1)) 0 (P ++ u)).
      assert (FN : fst N = fst (notes s last cp u)) by (unfold N; rewrite <- FU; apply notes_state).
      assert (GN : good (fst N)) by (rewrite FN; exact G').
      assert (LN : last_ok (P ++ u) (snd N)) by apply last_ok_any.
      unfold yy_try_NUL_trans, note_accepting. destruct (accept_good (fst N) GN) as [-> AR]. cbn [bind].
      destruct (dstep_delta (fst N) NUL GN) as [DN GD]. unfold dstep in DN. change (beq NUL NUL) with true in DN. cbn [bind] in DN.
      rewrite DN. cbn [bind fst snd].
      assert (DS : data (renew y) = (P ++ u) ++ NUL :: v') by (rewrite D1, D, W; apply app_assoc).
      destruct (Z.eqb_spec (delta (fst N) NUL) 110) as [J|J].
      * (* jam *)
        cbn [Z.eqb]. destruct fuel as [|fuel]; [lia|]. right. split.
        { unfold input. rewrite D, W. destruct P; destruct u; triv. }
        apply (delivers_eq (renew y)); [exact I1|].
        replace (cp + length u) with (length (P ++ u)) by (rewrite app_length; lia).
        apply (scan_find reads fuel (renew y) _ (P ++ u) (NUL :: v')); auto.
        -- intros X. apply app_eq_nil in X. destruct X as [-> ->]. simpl in N.
           destruct (first_step NUL) as [X _]. change (fst N) with 1%Z in J. rewrite J in X. discriminate.
        -- rewrite <- FU in FN. now rewrite FN.
        -- intros A0. rewrite A0. exact LN.
        -- unfold input. rewrite DS. change (NUL :: v') with ([NUL] ++ v'). rewrite app_assoc, <- app_assoc.
           assert (N1 : notes 1 None 0 ((P ++ u) ++ [NUL]) =
             (jam, if (accept (fst N) =? 0)%Z then snd (notes 1 None 0 (P ++ u)) else Some (fst N, length (P ++ u)))).
           { rewrite notes_app. rewrite <- FU in FN. destruct (notes 1 None 0 (P ++ u)) as [s1 l1]. simpl in FN. subst s1.
             cbn [notes snd]. now rewrite J. }
           apply (answer_jam _ _ _ N1).
      * destruct GD as [GD|GD]; [|contradiction].
        replace (delta (fst N) NUL =? 0)%Z with false
          by (symmetry; apply Z.eqb_neq; intros X; rewrite X in GD; discriminate).
        apply (result_eq (renew y)); [exact I1|].
        assert (F3 : firstn (Datatypes.S (cp + length u)) (data (renew y)) = (P ++ u) ++ [NUL]).
        { rewrite DS. change (NUL :: v') with ([NUL] ++ v'). rewrite app_assoc.
          replace (Datatypes.S (cp + length u)) with (length ((P ++ u) ++ [NUL])) by (rewrite !app_length; simpl; lia). apply app_firstn. }
        assert (LD1 : length (data (renew y)) = length (data y)) by now rewrite D1.
        assert (LU1 : length (y_unread (renew y)) = length (y_unread y)) by now rewrite U1.
        apply IH.
        -- lia.
        -- lia.
        -- exact S1.
        -- unfold small. rewrite I1. exact M.
        -- lia.
        -- rewrite F3, notes_app. rewrite <- FU in FN. destruct (notes 1 None 0 (P ++ u)) as [s1 l1]. simpl in FN. subst s1. reflexivity.
        -- exact GD.
        -- rewrite F3.
           assert (N1 : notes 1 None 0 (P ++ u) = (fst N, snd (notes 1 None 0 (P ++ u)))).
           { rewrite <- FU in FN. rewrite FN. now destruct (notes 1 None 0 (P ++ u)). }
           pose proof (last_ok_app (P ++ u) [NUL] _ _ (snd N) N1 LN) as X. cbn [notes snd] in X.
           replace (length (P ++ u)) with (cp + length u) in X by (rewrite app_length; lia). exact X.
Qed.

(** One round of the scanner: it ends at the end of the file, and else delivers the longest
    match, whatever the reads return. *)
Lemma round_result reads y : reads_ok reads -> sound y -> small y -> result y (yy_round reads y).
Proof.
  intros R S M. unfold yy_round. apply scan_match; auto.
  - unfold scan_fuel. pose proof (data_length y S). lia.
  - lia.
  - apply good_start.
  - left. reflexivity.
Qed.
