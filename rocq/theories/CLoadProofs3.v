(** * Proofs about the built-in configuration in memory: its parts *)

From Coq Require Import Permutation.
From Verif Require Import Base BaseFacts Stdio StdioFacts Filter Spoof ConfigSpec Prog Warnings
  Mem MemSpec MemFacts Words WordsSpec WordsFacts CTableProofs CTableProofs2 CFilelist FilesSpec CFilelistProofs CConfig LinkedSpec CConfigProofs CConfigProofs2 CConfigProofs7 CLoad CLoadSpec CLoadProofs CLoadProofs2.

Local Open Scope nat_scope.

Section parts.

Context {al : allocator} (literal : str -> ptr) (s0 : store_t).

Notation at_ := (adr s0).
Notation spoof_items := (spoof_items s0).
Notation sequence_item := (sequence_item s0).

(** ** The sequences *)

Definition spoof_heads : list nat := [4; 7; 12; 19; 24; 28; 35; 40; 45; 50; 54].
Definition spoof_own : list nat := flat_map (fun k => [k; S k; S (S k)]) spoof_heads.
Definition spoof_chains : list (list nat) :=
  [[0; 1; 2]; [10; 11; 0; 1; 2]; [15; 16; 17; 18; 0; 1; 2]; [22; 23; 0; 1; 2]; [27; 0; 1; 2]; [31; 32; 33; 34]; [38; 39]; [43; 44]; [48; 49]; [53]; [57]].

Notation shift := (map (Nat.add (length (s_heap s0)))).

Definition item_there (s : store_t) (k : nat) (i : item) : Prop :=
  match i with Rec _ vs => content s (at_ k) vs | Text x => string_in (s_heap s) (Some (at_ k)) (Some x) end.

Lemma filter_there s k i next c (b : bool) t x ps fs own : item_there s k i -> i = filter_item next c (Some (at_ (S k))) t -> item_there s (S k) (Text x) ->
  filters_at s ps fs None (shift own) -> first ps None = next -> t = (if b then 1 else 0)%Z -> code_of c = cleaner_code c ->
  filters_at s (at_ k :: ps) (mkFilter c None (Some x) b 0 None :: fs) None (shift (k :: S k :: own)).
Proof.
  intros I -> X F Nx Et Ec. cbn [filters_at f_cleaner f_filename f_builtin f_remove_trailing f_max_length f_table]. exists None, (Some (at_ (S k))), (shift own).
  rewrite Nx, <- Et, Ec. splits; auto. exact Logic.I.
Qed.

Lemma plain_there s k i next c (b : bool) t ps fs own : item_there s k i -> i = filter_item next c None t ->
  filters_at s ps fs None (shift own) -> first ps None = next -> t = (if b then 1 else 0)%Z -> code_of c = cleaner_code c ->
  filters_at s (at_ k :: ps) (mkFilter c None None b 0 None :: fs) None (shift (k :: own)).
Proof.
  intros I -> F Nx Et Ec. cbn [filters_at f_cleaner f_filename f_builtin f_remove_trailing f_max_length f_table]. exists None, None, (shift own).
  rewrite Nx, <- Et, Ec. splits; auto; exact Logic.I.
Qed.

Lemma sequence_there s k i next fps f x y ps fs own qs sown chains : item_there s k i -> i = sequence_item next k f -> first fps None = Some (at_ f) -> first ps None = next ->
  item_there s (S k) (Text x) -> item_there s (S (S k)) (Text y) -> filters_at s fps fs None (shift own) -> sequences_at s ps qs None (shift sown) (map shift chains) ->
  sequences_at s (at_ k :: ps) (mkSequence x fs (Some y) :: qs) None (shift (k :: S k :: S (S k) :: sown)) (map shift (own :: chains)).
Proof.
  intros I -> Ef Nx X Y F Sq. cbn [sequences_at s_name s_filters s_source]. exists (at_ (S k)), (Some (at_ (S (S k)))), fps, (shift own), (shift sown), (map shift chains).
  rewrite Nx, Ef. splits; auto.
Qed.

Lemma spoof_sequences s : (forall k i, nth_error spoof_items k = Some i -> item_there s k i) ->
  sequences_at s (map at_ spoof_heads) (cf_sequences spoof_config_file) None (shift spoof_own) (map shift spoof_chains).
Proof.
  intros H.
  assert (T2 : filters_at s [at_ 2] [generate_wipeup_filter true] None (shift [2])).
  { eapply (plain_there s 2 _ None F_wipeup true 1%Z [] [] []); try reflexivity. now apply H. }
  assert (T : filters_at s [at_ 0; at_ 2] [generate_filter F_safe; generate_wipeup_filter true] None (shift [0; 1; 2])).
  { eapply (filter_there s 0 _ _ F_safe false 0%Z (bs "safe") [at_ 2] _ [2]); try reflexivity; try (now apply H). exact T2. }
  assert (One : forall k i next c x ps fs own, item_there s k i -> i = filter_item next c (Some (at_ (S k))) 0%Z -> item_there s (S k) (Text x) ->
    filters_at s ps fs None (shift own) -> first ps None = next -> code_of c = cleaner_code c ->
    filters_at s (at_ k :: ps) (generate_builtin_filter c x :: fs) None (shift (k :: S k :: own))).
  { intros. now apply (filter_there s k i next c false 0%Z x). }
  assert (N0 : filters_at s [] [] None (shift [])) by reflexivity.
  assert (C1 : filters_at s (map at_ [10; 0; 2]) (generate_builtin_filter F_iso8859_1 (bs "iso8859_1") :: [generate_filter F_safe; generate_wipeup_filter true]) None (shift [10; 11; 0; 1; 2])).
  { apply (One 10 _ _ _ _ [at_ 0; at_ 2] _ [0; 1; 2] (H 10 _ eq_refl) eq_refl (H 11 _ eq_refl) T eq_refl eq_refl). }
  assert (C2 : filters_at s (map at_ [15; 17; 0; 2]) (generate_builtin_filter F_iso8859_1 (bs "cp1252") :: generate_builtin_filter F_iso8859_1 (bs "iso8859_1") :: [generate_filter F_safe; generate_wipeup_filter true]) None (shift [15; 16; 17; 18; 0; 1; 2])).
  { apply (One 15 _ _ _ _ [at_ 17; at_ 0; at_ 2] _ [17; 18; 0; 1; 2] (H 15 _ eq_refl) eq_refl (H 16 _ eq_refl)); try reflexivity.
    apply (One 17 _ _ _ _ [at_ 0; at_ 2] _ [0; 1; 2] (H 17 _ eq_refl) eq_refl (H 18 _ eq_refl) T eq_refl eq_refl). }
  assert (C3 : filters_at s (map at_ [22; 0; 2]) (generate_builtin_filter F_utf_8 (bs "unicode") :: [generate_filter F_safe; generate_wipeup_filter true]) None (shift [22; 23; 0; 1; 2])).
  { apply (One 22 _ _ _ _ [at_ 0; at_ 2] _ [0; 1; 2] (H 22 _ eq_refl) eq_refl (H 23 _ eq_refl) T eq_refl eq_refl). }
  assert (C4 : filters_at s (map at_ [27; 0; 2]) (generate_filter F_uncgi :: [generate_filter F_safe; generate_wipeup_filter true]) None (shift [27; 0; 1; 2])).
  { apply (plain_there s 27 _ _ F_uncgi false 0%Z [at_ 0; at_ 2] _ [0; 1; 2] (H 27 _ eq_refl) eq_refl T eq_refl eq_refl eq_refl). }
  assert (C5 : filters_at s (map at_ [31; 33; 34]) [generate_filter F_safe; generate_filter F_lower; generate_wipeup_filter true] None (shift [31; 32; 33; 34])).
  { apply (filter_there s 31 _ _ F_safe false 0%Z (bs "safe") [at_ 33; at_ 34] _ [33; 34] (H 31 _ eq_refl) eq_refl (H 32 _ eq_refl)); try reflexivity.
    apply (plain_there s 33 _ _ F_lower false 0%Z [at_ 34] _ [34] (H 33 _ eq_refl) eq_refl); try reflexivity.
    apply (plain_there s 34 _ _ F_wipeup true 1%Z [] [] [] (H 34 _ eq_refl) eq_refl); reflexivity. }
  assert (C6 : filters_at s (map at_ [38]) [generate_builtin_filter F_iso8859_1 (bs "iso8859_1")] None (shift [38; 39])).
  { apply (One 38 _ _ _ _ [] _ [] (H 38 _ eq_refl) eq_refl (H 39 _ eq_refl) N0 eq_refl eq_refl). }
  assert (C7 : filters_at s (map at_ [43]) [generate_builtin_filter F_iso8859_1 (bs "cp1252")] None (shift [43; 44])).
  { apply (One 43 _ _ _ _ [] _ [] (H 43 _ eq_refl) eq_refl (H 44 _ eq_refl) N0 eq_refl eq_refl). }
  assert (C8 : filters_at s (map at_ [48]) [generate_builtin_filter F_utf_8 (bs "unicode")] None (shift [48; 49])).
  { apply (One 48 _ _ _ _ [] _ [] (H 48 _ eq_refl) eq_refl (H 49 _ eq_refl) N0 eq_refl eq_refl). }
  assert (C9 : filters_at s (map at_ [53]) [generate_filter F_uncgi] None (shift [53])).
  { apply (plain_there s 53 _ _ F_uncgi false 0%Z [] _ [] (H 53 _ eq_refl) eq_refl N0 eq_refl eq_refl eq_refl). }
  assert (C10 : filters_at s (map at_ [57]) [generate_filter F_lower] None (shift [57])).
  { apply (plain_there s 57 _ _ F_lower false 0%Z [] _ [] (H 57 _ eq_refl) eq_refl N0 eq_refl eq_refl eq_refl). }
  assert (Z : sequences_at s [] [] None (shift []) (map shift [])) by (split; reflexivity).
  pose proof (sequence_there s 54 _ _ (map at_ [57]) 57 _ _ (map at_ []) _ [57] _ [] [] (H 54 _ eq_refl) eq_refl eq_refl eq_refl (H 55 _ eq_refl) (H 56 _ eq_refl) C10 Z) as S10.
  pose proof (sequence_there s 50 _ _ (map at_ [53]) 53 _ _ (map at_ [54]) _ [53] _ [54; 55; 56] [[57]] (H 50 _ eq_refl) eq_refl eq_refl eq_refl (H 51 _ eq_refl) (H 52 _ eq_refl) C9 S10) as S9.
  pose proof (sequence_there s 45 _ _ (map at_ [48]) 48 _ _ (map at_ [50; 54]) _ [48; 49] _ [50; 51; 52; 54; 55; 56] [[53]; [57]] (H 45 _ eq_refl) eq_refl eq_refl eq_refl (H 46 _ eq_refl) (H 47 _ eq_refl) C8 S9) as S8.
  pose proof (sequence_there s 40 _ _ (map at_ [43]) 43 _ _ (map at_ [45; 50; 54]) _ [43; 44] _ [45; 46; 47; 50; 51; 52; 54; 55; 56] [[48; 49]; [53]; [57]] (H 40 _ eq_refl) eq_refl eq_refl eq_refl (H 41 _ eq_refl) (H 42 _ eq_refl) C7 S8) as S7.
  pose proof (sequence_there s 35 _ _ (map at_ [38]) 38 _ _ (map at_ [40; 45; 50; 54]) _ [38; 39] _ [40; 41; 42; 45; 46; 47; 50; 51; 52; 54; 55; 56] [[43; 44]; [48; 49]; [53]; [57]] (H 35 _ eq_refl) eq_refl eq_refl eq_refl (H 36 _ eq_refl) (H 37 _ eq_refl) C6 S7) as S6.
  pose proof (sequence_there s 28 _ _ (map at_ [31; 33; 34]) 31 _ _ (map at_ [35; 40; 45; 50; 54]) _ [31; 32; 33; 34] _ [35; 36; 37; 40; 41; 42; 45; 46; 47; 50; 51; 52; 54; 55; 56] [[38; 39]; [43; 44]; [48; 49]; [53]; [57]] (H 28 _ eq_refl) eq_refl eq_refl eq_refl (H 29 _ eq_refl) (H 30 _ eq_refl) C5 S6) as S5.
  pose proof (sequence_there s 24 _ _ (map at_ [27; 0; 2]) 27 _ _ (map at_ [28; 35; 40; 45; 50; 54]) _ [27; 0; 1; 2] _ [28; 29; 30; 35; 36; 37; 40; 41; 42; 45; 46; 47; 50; 51; 52; 54; 55; 56] [[31; 32; 33; 34]; [38; 39]; [43; 44]; [48; 49]; [53]; [57]] (H 24 _ eq_refl) eq_refl eq_refl eq_refl (H 25 _ eq_refl) (H 26 _ eq_refl) C4 S5) as S4.
  pose proof (sequence_there s 19 _ _ (map at_ [22; 0; 2]) 22 _ _ (map at_ [24; 28; 35; 40; 45; 50; 54]) _ [22; 23; 0; 1; 2] _ [24; 25; 26; 28; 29; 30; 35; 36; 37; 40; 41; 42; 45; 46; 47; 50; 51; 52; 54; 55; 56] [[27; 0; 1; 2]; [31; 32; 33; 34]; [38; 39]; [43; 44]; [48; 49]; [53]; [57]] (H 19 _ eq_refl) eq_refl eq_refl eq_refl (H 20 _ eq_refl) (H 21 _ eq_refl) C3 S4) as S3.
  pose proof (sequence_there s 12 _ _ (map at_ [15; 17; 0; 2]) 15 _ _ (map at_ [19; 24; 28; 35; 40; 45; 50; 54]) _ [15; 16; 17; 18; 0; 1; 2] _ [19; 20; 21; 24; 25; 26; 28; 29; 30; 35; 36; 37; 40; 41; 42; 45; 46; 47; 50; 51; 52; 54; 55; 56] [[22; 23; 0; 1; 2]; [27; 0; 1; 2]; [31; 32; 33; 34]; [38; 39]; [43; 44]; [48; 49]; [53]; [57]] (H 12 _ eq_refl) eq_refl eq_refl eq_refl (H 13 _ eq_refl) (H 14 _ eq_refl) C2 S3) as S2.
  pose proof (sequence_there s 7 _ _ (map at_ [10; 0; 2]) 10 _ _ (map at_ [12; 19; 24; 28; 35; 40; 45; 50; 54]) _ [10; 11; 0; 1; 2] _ [12; 13; 14; 19; 20; 21; 24; 25; 26; 28; 29; 30; 35; 36; 37; 40; 41; 42; 45; 46; 47; 50; 51; 52; 54; 55; 56] [[15; 16; 17; 18; 0; 1; 2]; [22; 23; 0; 1; 2]; [27; 0; 1; 2]; [31; 32; 33; 34]; [38; 39]; [43; 44]; [48; 49]; [53]; [57]] (H 7 _ eq_refl) eq_refl eq_refl eq_refl (H 8 _ eq_refl) (H 9 _ eq_refl) C1 S2) as S1.
  pose proof (sequence_there s 4 _ _ (map at_ [0; 2]) 0 _ _ (map at_ [7; 12; 19; 24; 28; 35; 40; 45; 50; 54]) _ [0; 1; 2] _ [7; 8; 9; 12; 13; 14; 19; 20; 21; 24; 25; 26; 28; 29; 30; 35; 36; 37; 40; 41; 42; 45; 46; 47; 50; 51; 52; 54; 55; 56] [[10; 11; 0; 1; 2]; [15; 16; 17; 18; 0; 1; 2]; [22; 23; 0; 1; 2]; [27; 0; 1; 2]; [31; 32; 33; 34]; [38; 39]; [43; 44]; [48; 49]; [53]; [57]] (H 4 _ eq_refl) eq_refl eq_refl eq_refl (H 5 _ eq_refl) (H 6 _ eq_refl) T S1) as S0.
  exact S0.
Qed.

(** ** The list of files *)

Lemma NoDup_shift n l : NoDup l -> NoDup (map (Nat.add n) l).
Proof. intros N. apply FinFun.Injective_map_NoDup; [|exact N]. intros a b E. lia. Qed.

Fixpoint distinct (l : list nat) : bool := match l with [] => true | a :: l => negb (existsb (Nat.eqb a) l) && distinct l end.

Lemma NoDup_dec l : distinct l = true -> NoDup l.
Proof.
  induction l as [|a l IH]; cbn; [constructor|]. intros E. apply andb_true_iff in E as (E1 & E2). constructor; [|auto]. intros J. apply negb_true_iff in E1.
  enough (X : existsb (Nat.eqb a) l = true) by congruence. apply existsb_exists. exists a. split; [exact J|apply Nat.eqb_refl].
Qed.

Lemma NoDup_join {A} (a b : list A) : NoDup a -> NoDup b -> (forall x, In x a -> ~ In x b) -> NoDup (a ++ b).
Proof.
  induction a as [|x a IH]; cbn; auto. intros Na Nb D. apply NoDup_cons_iff in Na as (X & Na). constructor; [|apply IH; auto]. rewrite in_app_iff. intros [J|J]; [easy|exact (D x (or_introl eq_refl) J)].
Qed.

Theorem spoof_ok : literals_in (s_heap s0) literal the_literals ->
  ends (in_room s0 spoof_room)
    (fun p s' => exists own, loaded_at s' p spoof_config_file own /\ evolves [] own 0 s0 s' /\ heap_size (s_heap s') <= heap_size (s_heap s0) + spoof_room)
    (c_spoof_config_file literal s0).
Proof.
  intros Lits. apply spoof_first; [exact Lits|]. intros s A. unfold after_sequences.
  pose proof (arena_size _ _ _ A) as Sz. pose proof (arena_length _ _ _ A) as Ln. change (length spoof_items) with 58 in Ln.
  replace (items_size spoof_items) with 1622 in Sz by reflexivity. set (n0 := length (s_heap s0)) in *.
  assert (Bl : forall k, heap_size [blank k] = N.to_nat k) by (intros k; unfold blank; now rewrite size_one, repeat_length).
  eapply ends_bind.
  { eapply ends_weaken; [apply list_init| |intros p s' Q; exact Q]. unfold in_room, spoof_room.
    intros h n [(-> & ->)|(-> & ->)]; rewrite ?size_app, ?Bl, Sz; cbn [N.to_nat]; lia. }
  intros l s1 (-> & Ll & H1 & W1). rewrite Ln in *.
  assert (Sz1 : heap_size (s_heap s1) = heap_size (s_heap s0) + 1774).
  { rewrite H1. change [blank 24; blank 128] with ([blank 24] ++ [blank 128]). rewrite !size_app, !Bl, Sz. cbn [N.to_nat]. lia. }
  assert (K1 : forall b, b < n0 + 58 -> same_at s s1 b).
  { intros b Lb. split; [rewrite H1; apply nth_error_app1; lia|]. apply W1. cbn. lia. }
  assert (C1 : content s1 (at_ 3) [Adr (Some (at_ 4)); Adr None]).
  { apply (content_at s); [apply K1; cbn; lia|]. exact (arena_content _ _ _ 3 16 _ A eq_refl). }
  step (assign_ok s1 (at_ 3) _ 1 (Ptr (mkPtr (n0 + 58) 0)) C1 ltac:(cbn; lia) : assign (at_ 3) CF_files_to_ignore _ s1 = _).
  set (s2 := assigned s1 (at_ 3) 1 (Ptr (mkPtr (n0 + 58) 0))).
  assert (C2 : content s2 (at_ 3) [Adr (Some (at_ 4)); Adr (Some (mkPtr (n0 + 58) 0))]) by (apply (assigned_content s1 (at_ 3) [Adr (Some (at_ 4)); Adr None] 1 _ (Adr (Some (mkPtr (n0 + 58) 0))) C1); cbn; eauto).
  assert (K2 : forall b, b <> n0 + 3 -> same_at s1 s2 b) by (intros b Nb; apply assigned_at; exact Nb).
  step (ptr_at_ok s2 (at_ 3) _ 1 _ C2 eq_refl : ptr_at (at_ 3) CF_files_to_ignore s2 = _).
  assert (L2 : list_at s2 (mkPtr (n0 + 58) 0) [] 16 0 [n0 + 58; S (n0 + 58)]) by (apply (list_same s1); [intros b [<-|[<-|[]]]; apply K2; lia|exact Ll]).
  assert (Ca : cstr_at (s_heap s2) (literal (bs "{arch}")) (bs "{arch}")).
  { change (s_heap s2) with (s_heap s1). rewrite H1. apply cstr_old. destruct A as (-> & _). apply cstr_old, Lits. cbn. tauto. }
  assert (Na : p_block (literal (bs "{arch}")) < n0).
  { destruct (Lits (bs "{arch}") ltac:(cbn; tauto)) as (cells & rest & E & _). apply nth_error_Some. fold n0. congruence. }
  eapply ends_bind.
  { eapply ends_weaken; [apply (list_put s2 _ [] 0 _ 16 _ _ L2 Ca ltac:(intros [E|[E|[]]]; lia) ltac:(reflexivity) ltac:(cbn; lia))| |intros u s' Q; exact Q].
    intros h n (_ & B). unfold in_room, spoof_room. change (s_heap s2) with (s_heap s1) in B. change (roomier [] 16) with 16 in B. change (length (bs "{arch}")) with 6 in B. lia. }
  intros u s3 (iown & L3 & (M1 & M2 & M3 & M4) & Li & Sz3). constructor. change (s_heap s2) with (s_heap s1) in *. change (roomier [] 16) with 16 in *. change (length (bs "{arch}")) with 6 in Sz3.
  assert (Ln1 : length (s_heap s1) = n0 + 60) by (rewrite H1, app_length, Ln; cbn; lia). rewrite Ln1 in *.
  assert (K3 : forall b, b < n0 + 58 -> same_at s2 s3 b) by (intros b Lb; apply M1; cbn; lia).
  assert (K : forall b, b < n0 + 58 -> b <> n0 + 3 -> same_at s s3 b).
  { intros b Lb Nb. destruct (K1 b Lb) as (X1 & X2), (K2 b Nb) as (Y1 & Y2), (K3 b Lb) as (Z1 & Z2). split; [exact (eq_trans Z1 (eq_trans Y1 X1))|exact (eq_trans Z2 (eq_trans Y2 X2))]. }
  assert (Io : forall b, In b iown -> n0 + 58 <= b) by (intros b J; apply M2 in J as [[<-|[<-|[]]]|J]; lia).
  assert (NDi : NoDup iown) by (destruct L3 as (? & ? & _ & _ & _ & _ & ND & _); exact ND).
  assert (Sq : sequences_at s3 (map at_ spoof_heads) (cf_sequences spoof_config_file) None (shift spoof_own) (map shift spoof_chains)).
  { apply (sequences_same s).
    - intros b J. apply in_map_iff in J as (k & <- & J). fold n0. apply K; [|intros E; assert (k = 3) by lia; subst k; cbn in J; lia].
      enough (k < 58) by lia. revert J. apply (proj1 (Forall_forall (fun k => k < 58) spoof_own)). repeat (apply Forall_cons; [apply Nat.ltb_lt; reflexivity|]). apply Forall_nil.
    - intros b J. rewrite <- concat_map in J. apply in_map_iff in J as (k & <- & J). fold n0. apply K; [|intros E; assert (k = 3) by lia; subst k; cbn in J; lia].
      enough (k < 58) by lia. revert J. apply (proj1 (Forall_forall (fun k => k < 58) (concat spoof_chains))). repeat (apply Forall_cons; [apply Nat.ltb_lt; reflexivity|]). apply Forall_nil.
    - apply spoof_sequences. intros k i E. destruct i as [n vs|x]; [exact (arena_content _ _ _ _ _ _ A E)|]. apply (arena_text _ _ _ _ _ A E).
      apply nth_error_In in E. revert E. cbn [In spoof_items]. intros E. repeat (destruct E as [E|E]; [try discriminate E; try (injection E as <-; vm_compute; intuition discriminate)|]). easy. }
  assert (C3 : content s3 (at_ 3) [Adr (Some (at_ 4)); Adr (Some (mkPtr (n0 + 58) 0))]) by (apply (content_at s2); [apply K3; cbn; lia|exact C2]).
  exists (shift (seq 0 58) ++ iown). splits; [| |unfold spoof_room; lia].
  - exists (p_block (at_ 3) :: shift spoof_own ++ iown), (map shift spoof_chains).
    assert (Ap : forall k, k < 58 -> ~ In (n0 + k) iown) by (intros k Lk J; apply Io in J; lia).
    assert (Sh : forall l b, Forall (fun k => k < 58) l -> In b (shift l) -> ~ In b iown).
    { intros l b F J. apply in_map_iff in J as (k & <- & J). apply Ap. exact (proj1 (Forall_forall _ _) F k J). }
    assert (F1 : Forall (fun k => k < 58) (3 :: spoof_own)) by (repeat (apply Forall_cons; [apply Nat.ltb_lt; reflexivity|]); apply Forall_nil).
    assert (F2 : Forall (fun k => k < 58) (concat spoof_chains)) by (repeat (apply Forall_cons; [apply Nat.ltb_lt; reflexivity|]); apply Forall_nil).
    assert (F3 : Forall (fun k => k < 58) (seq 0 58)) by (repeat (apply Forall_cons; [apply Nat.ltb_lt; reflexivity|]); apply Forall_nil).
    assert (Dj : forall l l' : list nat, NoDup (l ++ l') -> forall b, In b (shift l) -> ~ In b (shift l')).
    { intros l l' ND b J J'. apply in_map_iff in J as (k & <- & J). apply in_map_iff in J' as (k' & E & J'). assert (k' = k) by lia. subst k'. exact (NoDup_apart _ _ _ ND J J'). }
    change (p_block (at_ 3) :: shift spoof_own ++ iown) with (shift (3 :: spoof_own) ++ iown).
    splits.
    + exists (map at_ spoof_heads), (Some (mkPtr (n0 + 58) 0)), (shift spoof_own), iown. splits; auto. exists 16. split; [exact L3|]. cbn. lia.
    + apply NoDup_join; [apply NoDup_shift, seq_NoDup|exact NDi|]. intros b J. exact (Sh _ _ F3 J).
    + apply NoDup_join; [apply NoDup_shift, NoDup_dec; reflexivity|exact NDi|]. intros b J. exact (Sh _ _ F1 J).
    + apply Forall_map. repeat (apply Forall_cons; [apply NoDup_shift, NoDup_dec; reflexivity|]). apply Forall_nil.
    + intros b J J'. rewrite <- concat_map in J'. apply in_app_iff in J as [J|J]; [|exact (Sh _ _ F2 J' J)].
      apply in_map_iff in J as (k & <- & J). apply in_map_iff in J' as (k' & E & J'). assert (k' = k) by lia. subst k'.
      assert (X : forallb (fun k => if in_dec Nat.eq_dec k (concat spoof_chains) then false else true) (3 :: spoof_own) = true) by reflexivity.
      rewrite forallb_forall in X. specialize (X _ J). destruct (in_dec _ _ _); [discriminate|easy].
    + intros b. rewrite !in_app_iff, <- concat_map.
      assert (X : forall k, In k (seq 0 58) <-> In k (3 :: spoof_own) \/ In k (concat spoof_chains)).
      { intros k. rewrite <- in_app_iff. split; intros J.
        - assert (X : forallb (fun k => if in_dec Nat.eq_dec k ((3 :: spoof_own) ++ concat spoof_chains) then true else false) (seq 0 58) = true) by reflexivity.
          rewrite forallb_forall in X. specialize (X _ J). destruct (in_dec _ _ _); [easy|discriminate].
        - apply in_seq. rewrite in_app_iff in J. destruct J as [J|J]; [pose proof (proj1 (Forall_forall _ _) F1 k J)|pose proof (proj1 (Forall_forall _ _) F2 k J)]; cbv beta in *; lia. }
      rewrite !in_map_iff. split.
      * intros [(k & E & J)|J]; [|tauto]. apply X in J as [J|J]; [left; left|right]; exists k; auto.
      * intros [[(k & E & J)|J]|(k & E & J)]; [left; exists k; split; [exact E|apply X; tauto]|tauto|left; exists k; split; [exact E|apply X; tauto]].
  - unfold evolves. splits.
    + intros b Lb _. fold n0 in Lb. destruct (K b ltac:(lia) ltac:(lia)) as (X1 & X2). destruct A as (E & W & _). split.
      * rewrite X1, E. now apply nth_error_app1.
      * rewrite X2. now apply W.
    + intros b J. right. fold n0. apply in_app_iff in J as [J|J]; [apply in_map_iff in J as (k & <- & _); fold n0; lia|apply Io in J; lia].
    + fold n0. lia.
    + destruct A as (E & _). rewrite H1, E, !live_app in M4. change (live (map item_block spoof_items)) with 58 in M4. change (live [blank 24; blank 128]) with 2 in M4.
      rewrite app_length, map_length, seq_length. cbn [length] in *. lia.
Qed.

End parts.
