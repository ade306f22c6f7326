(** * Proofs about file lists *)

From Verif Require Import Base BaseFacts CleanSpec Filelist Prog File FS FileSpec.

(** The first [count] slots are filled. *)
Definition good (l : filelist) : Prop :=
  (fl_count l <= length (fl_slots l))%nat /\ (fl_ptr l <= fl_count l)%nat /\
  exists fs, firstn (fl_count l) (fl_slots l) = map Some fs.

Definition ogood (l : option filelist) : Prop := match l with None => True | Some l => good l end.

Lemma items_map fs n s c p : firstn c s = map Some fs -> c = n -> items (Some (mkFilelist s n p)) = fs.
Proof.
  intros E ->. simpl. rewrite E. clear. induction fs; simpl; congruence.
Qed.

Lemma good_items l : good l -> firstn (fl_count l) (fl_slots l) = map Some (items (Some l)).
Proof.
  intros (_ & _ & fs & E). simpl. rewrite E. f_equal. clear. induction fs; simpl; congruence.
Qed.

Lemma good_length l : good l -> length (items (Some l)) = fl_count l.
Proof.
  intros G. pose proof (good_items l G) as E. apply (f_equal (@length _)) in E.
  rewrite map_length, firstn_length in E. destruct G as (L & _). lia.
Qed.

Lemma good_init : good filelist_init.
Proof. repeat split; simpl; try lia. now exists []. Qed.

Lemma set_slot_spec slots i f :
  (i < length slots)%nat ->
  exists s', set_slot slots i f = Some s' /\ length s' = length slots /\ firstn (S i) s' = firstn i slots ++ [Some f].
Proof.
  revert i. induction slots as [|x r IH]; intros i L; simpl in L; [lia|].
  destruct i as [|j]; simpl.
  - eexists. splits; reflexivity.
  - destruct (IH j) as (s' & E & Ln & F); [lia|]. rewrite E. eexists. splits; [reflexivity | simpl; lia |].
    cbn [firstn app]. f_equal. exact F.
Qed.

Lemma put_good l f : good l ->
  exists l', filelist_put (Some l) f = Ok l' /\ good l' /\
    items (Some l') = items (Some l) ++ [f] /\ fl_ptr l' = 0%nat.
Proof.
  intros G. pose proof (good_items l G) as GI. destruct G as (L & P & fs & E).
  unfold filelist_put.
  set (slots := if (fl_count l =? length (fl_slots l))%nat then grown l else fl_slots l).
  assert (S : (fl_count l < length slots)%nat /\ firstn (fl_count l) slots = firstn (fl_count l) (fl_slots l)).
  { unfold slots. destruct (Nat.eqb_spec (fl_count l) (length (fl_slots l))) as [Eq|Ne].
    - unfold grown. rewrite Eq, firstn_all, app_length, repeat_length. unfold FILELIST_CHUNK. split; [lia|].
      rewrite firstn_app, firstn_all, Nat.sub_diag. simpl. now rewrite app_nil_r.
    - split; [lia | reflexivity]. }
  destruct S as [S1 S2]. destruct (set_slot_spec slots (fl_count l) f S1) as (s' & Es & Ln & Fs).
  rewrite Es. eexists. splits; [reflexivity| | |reflexivity].
  - repeat split; cbn [fl_count fl_slots fl_ptr]; try lia.
    exists (fs ++ [f]). rewrite Fs, S2, E, map_app. reflexivity.
  - rewrite (items_map (fs ++ [f]) (S (fl_count l)) s' (S (fl_count l)) 0).
    + f_equal. rewrite E in GI. clear - GI. revert GI. generalize (items (Some l)). induction fs; intros [|x y]; simpl; try discriminate; auto.
      intros [= -> H]. f_equal. auto.
    + rewrite Fs, S2, E, map_app. reflexivity.
    + reflexivity.
Qed.

Lemma get_good l : ogood l ->
  exists r l', filelist_get l = Ok (r, l') /\ ogood l' /\ items l' = items l /\
    r = nth_error (items l) (cursor l) /\
    cursor l' = (if (cursor l =? length (items l))%nat then 0 else S (cursor l))%nat.
Proof.
  intros G. destruct l as [l|]; simpl.
  2: { do 2 eexists. splits; reflexivity. }
  pose proof (good_items l G) as GI. pose proof (good_length l G) as GL. destruct G as (L & P & fs & E).
  destruct (Nat.eqb_spec (fl_count l) 0) as [Z|Z].
  - exists None, (Some l). splits; auto; simpl.
    + repeat split; eauto.
    + destruct (items (Some l)) eqn:X; [|simpl in GL; lia]. simpl in X. rewrite X. now destruct (fl_ptr l).
    + simpl in GL. rewrite GL. replace (fl_ptr l) with 0%nat by lia. now rewrite Z.
  - destruct (Nat.eqb_spec (fl_ptr l) (fl_count l)) as [Eq|Ne].
    + do 2 eexists. splits; [reflexivity| | | |]; simpl.
      * repeat split; simpl; eauto. lia.
      * reflexivity.
      * symmetry. apply nth_error_None. simpl in GL. lia.
      * simpl in GL. rewrite GL, Eq, Nat.eqb_refl. reflexivity.
    + assert (N1 : nth_error (fl_slots l) (fl_ptr l) = nth_error (map Some (items (Some l))) (fl_ptr l)).
      { rewrite <- GI. clear - P Ne L. 
        rewrite <- (firstn_skipn (fl_count l) (fl_slots l)) at 1. apply nth_error_app1. rewrite firstn_length. lia. }
      rewrite nth_error_map in N1.
      destruct (nth_error (items (Some l)) (fl_ptr l)) as [f|] eqn:N2.
      * simpl in N1. rewrite N1. do 2 eexists. splits; [reflexivity| | | |]; simpl.
        -- repeat split; simpl; eauto. lia.
        -- reflexivity.
        -- simpl in N2. now rewrite N2.
        -- simpl in GL. rewrite GL. destruct (Nat.eqb_spec (fl_ptr l) (fl_count l)); [lia|reflexivity].
      * apply nth_error_None in N2. simpl in N2, GL. lia.
Qed.

Lemma usable_good l : usable_list l -> ogood l.
Proof.
  induction 1 as [| |l f l' _ IH E|l r l' _ IH E|l _ IH]; simpl; auto using good_init.
  - destruct (put_good l f IH) as (l2 & E2 & G & _). rewrite E in E2. now injection E2 as ->.
  - destruct (get_good l IH) as (r2 & l2 & E2 & G & _). rewrite E in E2. injection E2 as _ ->. exact G.
  - destruct l as [l|]; simpl; auto. destruct IH as (A & B & C). repeat split; simpl; auto. lia.
Qed.

(** Putting a series of files. *)
Lemma put_all_good l files : good l ->
  exists l', put_all l files = Ok l' /\ good l' /\ items (Some l') = items (Some l) ++ files /\
    (files <> [] -> fl_ptr l' = 0%nat).
Proof.
  revert l. induction files as [|f files IH]; intros l G; cbn [put_all].
  - exists l. splits; auto; [now rewrite app_nil_r | easy].
  - destruct (put_good l f G) as (l1 & E1 & G1 & I1 & P1). rewrite E1. cbn [bind].
    destruct (IH l1 G1) as (l2 & E2 & G2 & I2 & P2). exists l2. splits; auto.
    + rewrite I2, I1, <- app_assoc. reflexivity.
    + intros _. destruct files as [|g files].
      * simpl in E2. injection E2 as <-. exact P1.
      * apply P2. discriminate.
Qed.

(** Reading [n] times. *)
Lemma get_many_good n : forall l,
  ogood l ->
  exists rs l', get_many n l = Ok (rs, l') /\ ogood l' /\ items l' = items l /\
    forall k, nth_error rs k = if (k <? n)%nat then Some (nth_error (items l) ((cursor l + k) mod (S (length (items l))))) else None.
Proof.
  induction n as [|n IH]; intros l G; cbn [get_many].
  - do 2 eexists. splits; [reflexivity|auto|auto|]. intros k. now destruct k.
  - destruct (get_good l G) as (r & l1 & E & G1 & I1 & R1 & C1). rewrite E. cbn [bind].
    destruct (IH l1 G1) as (rs & l2 & E2 & G2 & I2 & N2). rewrite E2. cbn [bind fst snd].
    do 2 eexists. splits; [reflexivity|auto|congruence|].
    assert (CL : (cursor l <= length (items l))%nat).
    { destruct l as [l|]; [|simpl; lia]. rewrite (good_length l G). destruct G as (_ & P & _). exact P. }
    intros [|k]; cbn [nth_error].
    + rewrite Nat.add_0_r, Nat.mod_small by lia. now rewrite R1.
    + rewrite N2, I1. change (S k <? S n)%nat with (k <? n)%nat.
      destruct (k <? n)%nat; [|reflexivity]. do 2 f_equal. rewrite C1.
      destruct (Nat.eqb_spec (cursor l) (length (items l))) as [Eq|Ne].
      * rewrite Eq. replace (length (items l) + S k)%nat with (k + 1 * S (length (items l)))%nat by lia.
        now rewrite Nat.mod_add by lia.
      * f_equal. lia.
Qed.

(** ** ignore_file *)

Lemma ignore_loop_good fuel : forall name l,
  ogood l -> (length (items l) - cursor l < fuel)%nat -> (cursor l <= length (items l))%nat ->
  exists l', ignore_loop fuel name l = Ok (existsb (str_eqb name) (skipn (cursor l) (items l)), l') /\
    ogood l' /\ items l' = items l /\ (cursor l' <= length (items l'))%nat /\
    (existsb (str_eqb name) (skipn (cursor l) (items l)) = false -> cursor l' = 0%nat).
Proof.
  induction fuel as [|fuel IH]; intros name l G F CL; [lia|]. cbn [ignore_loop].
  destruct (get_good l G) as (r & l1 & E & G1 & I1 & R1 & C1). rewrite E. cbn [bind].
  destruct r as [f|].
  - symmetry in R1. assert (L : (cursor l < length (items l))%nat) by (apply nth_error_Some; congruence).
    assert (SK : skipn (cursor l) (items l) = f :: skipn (S (cursor l)) (items l)).
    { clear - R1. revert R1. generalize (cursor l). induction (items l) as [|x y IHy]; intros [|n]; simpl; try discriminate.
      - now intros [= ->].
      - intros H. rewrite (IHy n H). reflexivity. }
    rewrite SK. cbn [existsb].
    destruct (Nat.eqb_spec (cursor l) (length (items l))); [lia|].
    destruct (str_eqb name f) eqn:Q.
    + exists l1. splits; auto; [rewrite I1, C1; lia | discriminate].
    + destruct (IH name l1 G1) as (l2 & E2 & G2 & I2 & CL2 & C2); [rewrite I1, C1; lia | rewrite I1, C1; lia |].
      rewrite I1, C1 in E2, C2. rewrite E2. exists l2. splits; auto; congruence.
  - symmetry in R1. apply nth_error_None in R1. assert (cursor l = length (items l)) as Eq by lia.
    rewrite Eq, skipn_all. simpl. exists l1. splits; auto.
    + rewrite C1, Eq, Nat.eqb_refl. lia.
    + intros _. now rewrite C1, Eq, Nat.eqb_refl.
Qed.

Lemma cursor_le l : ogood l -> (cursor l <= length (items l))%nat.
Proof.
  destruct l as [l|]; intros G; simpl; [|lia].
  pose proof (good_length l G) as E. simpl in E. rewrite E. now destruct G as (_ & P & _).
Qed.

Lemma count_items l : ogood l -> filelist_count l = length (items l).
Proof.
  destruct l as [l|]; intros G; [|reflexivity]. symmetry. apply (good_length l G).
Qed.

Lemma hidden_dec n : {hidden n} + {~ hidden n}.
Proof.
  destruct n as [|c r].
  - right. intros (x & E). discriminate.
  - destruct (byte_dec c "."%byte) as [->|N].
    + left. now exists r.
    + right. intros (x & E). congruence.
Defined.

Lemma ignore_file_hidden name l : hidden name -> ignore_file name l = Ok (true, l).
Proof. intros (r & ->). reflexivity. Qed.

Lemma ignore_file_good name l :
  ogood l -> ~ hidden name ->
  exists l', ignore_file name l = Ok (existsb (str_eqb name) (skipn (cursor l) (items l)), l') /\
    ogood l' /\ items l' = items l /\
    (existsb (str_eqb name) (skipn (cursor l) (items l)) = false -> cursor l' = 0%nat).
Proof.
  intros G H. assert (E : ignore_file name l = ignore_loop (S (filelist_count l)) name l).
  { destruct name as [|c r]; [reflexivity|]. simpl. destruct (beq c ".") eqn:B; [|reflexivity].
    apply beq_eq in B. subst c. exfalso. apply H. now exists r. }
  rewrite E. rewrite (count_items l G).
  destruct (ignore_loop_good (S (length (items l))) name l G) as (l' & E' & G' & I' & _ & C'); [lia | now apply cursor_le |].
  exists l'. auto.
Qed.

(** The result and the next cursor of any check. *)
Lemma ignore_file_result name l b l' :
  ogood l -> ignore_file name l = Ok (b, l') ->
  ogood l' /\ items l' = items l /\
  (b = true <-> hidden name \/ In name (skipn (cursor l) (items l))) /\
  (b = false -> cursor l' = 0%nat).
Proof.
  intros G E. destruct (hidden_dec name) as [H|H].
  - rewrite (ignore_file_hidden name l H) in E. injection E as <- <-. splits; auto; [tauto | discriminate].
  - destruct (ignore_file_good name l G H) as (l2 & E2 & G2 & I2 & C2). rewrite E in E2. injection E2 as -> ->.
    splits; auto. rewrite existsb_exists. split.
    + intros (x & I & Q). apply str_eqb_eq in Q. subst x. auto.
    + intros [X|X]; [contradiction|]. exists name. split; auto. apply str_eqb_refl.
Qed.

Lemma ignore_file_ok name l : ogood l -> exists b l', ignore_file name l = Ok (b, l').
Proof.
  intros G. destruct (hidden_dec name) as [H|H].
  - rewrite (ignore_file_hidden name l H). eauto.
  - destruct (ignore_file_good name l G H) as (l2 & E2 & _). eauto.
Qed.
