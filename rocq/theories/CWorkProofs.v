(** * Lists and sequence in memory while work goes on *)

From Verif Require Import Base BaseFacts Stdio Table Filter Filelist FilelistProofs Prog ProgFacts Warnings File FileSpec Inline Startup Main Mem MemFacts MemSpec CFilters CFiltersProofs CMainProofs
  Words WordsSpec WordsFacts CTable CTableProofs CFilelist FilesSpec CFilelistProofs CConfig LinkedSpec CConfigProofs CLoadSpec CReviewSpec CReviewProofs
  CRun CRunSpec CRunProofs CRunProofs2 CRunProofs3 CWork CWorkSpec.

Local Open Scope nat_scope.

(** ** The same blocks hold the same *)

Lemma ready_same s s' p q k own : (forall b, In b own -> same_at s s' b) -> ready_at s p q k own -> ready_at s' p q k own.
Proof.
  intros Sm (next & nm & source & fps & fown & C & Nm & So & R & -> & ND).
  exists next, nm, source, fps, fown. splits; auto.
  - apply (content_at s); [|exact C]. apply Sm. now left.
  - apply (string_same s); [|exact Nm]. intros b I. apply Sm. right. apply in_app_iff. left. cbn in *. tauto.
  - apply (string_same s); [|exact So]. intros b I. apply Sm. right. apply in_app_iff. left. cbn in *. now right.
  - apply (reviewed_same s); [|exact R]. intros b I. apply Sm. right. apply in_app_iff. now right.
Qed.

Lemma ready_old s p q k own b : ready_at s p q k own -> In b own -> b < length (s_heap s).
Proof.
  intros (next & nm & source & fps & fown & C & Nm & So & R & -> & ND) [<-|I]; [exact (content_live _ _ _ C)|].
  apply in_app_iff in I as [I|I]; [|eapply reviewed_old; eauto]. apply pair_list in I as [I|I]; eauto using string_old.
Qed.

Lemma listed_same s s' p l own : (forall b, In b own -> same_at s s' b) -> listed s p l own -> listed s' p l own.
Proof.
  intros Sm. unfold listed. destruct p as [p|], l as [l|]; auto. intros (U & max & L). split; [exact U|]. exists max. now apply (list_same s).
Qed.

Lemma listed_old s p l own b : listed s p l own -> In b own -> b < length (s_heap s).
Proof.
  unfold listed. destruct p as [p|], l as [l|]; try contradiction; [|intros -> []]. intros (_ & max & L). eapply list_own_old; eauto.
Qed.

Lemma literals_same h h' literal l : (forall b, b < length h -> nth_error h' b = nth_error h b) -> literals_in h literal l -> literals_in h' literal l.
Proof.
  intros K L x I. apply (cstr_same h); [|now apply L]. apply K. exact (cstr_live _ _ _ (L x I)).
Qed.

(** ** Reading a list *)

Lemma listed_get s p l own : listed s p l own ->
  exists f s' x l', c_filelist_get p s = done (f, s') /\ filelist_get l = Ok (x, l') /\ string_in (s_heap s) f x /\
    listed s' p l' own /\ s_heap s' = s_heap s /\ same_but own s s' /\ x = nth_error (items l) (cursor l) /\ items l' = items l /\
    cursor l' = onward (items l) (cursor l).
Proof.
  unfold listed at 1. destruct p as [p|], l as [l|]; try contradiction.
  - intros (U & max & L). destruct (list_get _ _ _ _ _ _ L) as (f & s' & E & Sf & L' & Eh & Sb).
    pose proof (usable_good _ U) as G. destruct (get_good _ G) as (x & l' & Eg & G' & Ei & Ex & Ec).
    exists f, s', x, l'. fold (onward (items (Some l)) (cursor (Some l))) in Ec. splits; auto.
    + rewrite Ex, <- Eh. exact Sf.
    + pose proof (usable_get _ _ _ U Eg) as U'. unfold listed. destruct l' as [l'|].
      * split; [exact U'|]. exists max. rewrite Ei, Ec. exact L'.
      * exfalso. cbn in Eg. destruct (fl_count l =? 0); [discriminate|]. destruct (fl_ptr l =? fl_count l); [discriminate|].
        destruct (nth_error (fl_slots l) (fl_ptr l)) as [[y|]|]; discriminate.
    + intros b N. apply Sb. intros [<-|[]]. apply N. destruct L as (array & names & _ & _ & _ & -> & _). now left.
  - intros ->. exists None, s, None, None. cbn. splits; auto. now intros b _.
Qed.

Lemma listed_size s p l own : listed s p l own -> length (items l) <= heap_size (s_heap s).
Proof.
  unfold listed. destruct p as [p|], l as [l|]; try contradiction; [|intros; apply Nat.le_0_l].
  intros (_ & max & (array & names & _ & CA & F & _)). apply content_size in CA. apply Forall2_len in F. rewrite app_length, map_length in CA. lia.
Qed.

Lemma ignore_rounds p d own : forall n fuel fuel' s l, listed s p l own -> length (items l) - cursor l <= n -> n < fuel -> n < fuel' ->
  exists b l' s',
    wrounds fuel (fun _ => let$ file_walk := c_filelist_get p in
                           match file_walk with
                           | None => wret (inr false)
                           | Some file_walk => let$ name := bytes (c_read file_walk) in if str_eqb d name then wret (inr true) else wret (inl tt)
                           end) tt s = done (b, s') /\
    ignore_loop fuel' d l = Ok (b, l') /\ listed s' p l' own /\ s_heap s' = s_heap s /\ same_but own s s' /\ items l' = items l.
Proof.
  induction n as [|n IH]; intros [|fuel] [|fuel'] s l L Le F F'; try lia; cbn [wrounds ignore_loop];
    destruct (listed_get _ _ _ _ L) as (f & s1 & x & l1 & E & Eg & Sf & L1 & Eh & Sb & Ex & Ei & Ec); rewrite wbind_assoc, (wbind_done _ _ _ _ _ E), Eg; cbn [bind].
  - assert (x = None) as -> by (rewrite Ex; apply nth_error_None; lia). destruct f as [f|]; [contradiction|].
    exists false, l1, s1. splits; auto.
  - destruct f as [f|], x as [x|]; cbn [string_in] in Sf; try contradiction.
    2:{ exists false, l1, s1. splits; auto. }
    rewrite wbind_assoc. rewrite <- Eh in Sf. rewrite (wbind_done _ _ _ _ _ (bytes_done _ _ _ _ (read_ok _ _ _ (proj2 Sf)))), store_eta.
    destruct (str_eqb d x).
    { exists true, l1, s1. splits; auto. }
    rewrite wbind_ret. assert (Lt : cursor l < length (items l)) by (apply nth_error_Some; congruence).
    destruct (IH fuel fuel' s1 l1 L1) as (b & l' & s' & E2 & E3 & L2 & Eh2 & Sb2 & Ei2); [|lia|lia|].
    { rewrite Ei, Ec. unfold onward. destruct (Nat.eqb_spec (cursor l) (length (items l))); lia. }
    exists b, l', s'. splits; auto; [congruence| |congruence]. intros y N. rewrite Sb2 by exact N. now apply Sb.
Qed.

Lemma ignore_in_memory s p d l own : listed s p l own ->
  exists b l' s', w_ignore_file p d s = done (b, s') /\ ignore_file d l = Ok (b, l') /\ listed s' p l' own /\ s_heap s' = s_heap s /\ same_but own s s' /\ items l' = items l.
Proof.
  intros L. unfold w_ignore_file, ignore_file.
  assert (Lo : length (items l) - cursor l <= length (items l)) by lia. pose proof (listed_size _ _ _ _ L) as Sz.
  assert (G : ogood l) by (unfold listed in L; destruct p, l; try contradiction; [apply usable_good; tauto|exact I]).
  destruct (ignore_rounds p d own _ (S (heap_size (s_heap s))) (S (filelist_count l)) s l L Lo ltac:(lia)) as (b & l' & s' & X); [rewrite (count_items l G); lia|].
  destruct d as [|c d]; [exists b, l', s'; exact X|]. destruct (beq c "."); [|exists b, l', s'; exact X].
  exists true, l, s. splits; auto. now intros y _.
Qed.
