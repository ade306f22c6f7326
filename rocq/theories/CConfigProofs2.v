(** * Proofs about the configuration in memory: the actions *)

From Coq Require Import Permutation.
From Verif Require Import Base BaseFacts Stdio StdioFacts Filter Spoof ConfigSpec ConfigLex ConfigParse Prog Warnings Startup
  Mem MemSpec MemFacts CFiltersProofs CFileProofs Words WordsSpec WordsFacts CTableProofs CTableProofs2 CFilelist FilesSpec CFilelistProofs CConfig LinkedSpec CConfigProofs.

Local Open Scope nat_scope.

Ltac step L := rewrite (wbind_done _ _ _ _ _ L).

(** ** Change *)

Lemma evolves_trans a b c k1 k2 s1 s2 s3 : evolves a b k1 s1 s2 -> evolves b c k2 s2 s3 -> evolves a c (k1 + k2) s1 s3.
Proof.
  intros (A1 & A2 & A3 & A4) (B1 & B2 & B3 & B4). unfold evolves. splits; [| |lia|lia].
  - intros i L Nn. destruct (A1 i L Nn) as (E1 & E2). destruct (B1 i ltac:(lia)) as (E3 & E4); [|split; congruence].
    intros J. apply A2 in J as [J|J]; [easy|lia].
  - intros i J. apply B2 in J as [J|J]; [auto|lia].
Qed.

Lemma evolves_new own own' k s s' more : s_heap s' = s_heap s ++ more -> (forall b, b < length (s_heap s) -> ~ In b own -> s_words s' b = s_words s b) ->
  (forall b, In b own' -> In b own \/ length (s_heap s) <= b) -> live more + length own = length own' + k -> evolves own own' k s s'.
Proof.
  intros H W I L. unfold evolves. splits; auto.
  - intros b Lb Nb. split; [|auto]. rewrite H. now apply nth_error_app1.
  - rewrite H, app_length. lia.
  - rewrite H, live_app. lia.
Qed.

Lemma evolves_refl own s : evolves own own 0 s s.
Proof. unfold evolves. splits; auto; lia. Qed.

Lemma evolves_at own own' k s s' b : evolves own own' k s s' -> there s b -> ~ In b own -> same_at s s' b.
Proof. intros (E & _) T N. apply E; [now apply there_old|exact N]. Qed.

(** ** Strings that were read *)

(** A string of at most [m] bytes outside [own] *)
Definition word_in (s : store_t) (own : list nat) (m : nat) (q : option ptr) (x : option str) : Prop :=
  match q, x with
  | Some q, Some x => cstr_at (s_heap s) q x /\ ~ In (p_block q) own /\ length x <= m
  | None, None => True
  | _, _ => False
  end.

Lemma word_evolves own own' k s s' m q x : evolves own own' k s s' -> word_in s own m q x -> word_in s' own' m q x.
Proof.
  intros E. destruct q as [q|], x as [x|]; cbn; auto. intros (C & N & L).
  assert (T : there s (p_block q)) by (destruct C as (cells & rest & X & _); now exists cells). splits; auto.
  - apply (cstr_same (s_heap s)); [|exact C]. now apply (evolves_at _ _ _ _ _ _ E).
  - intros I. apply E in I as [I|I]; [easy|]. apply there_old in T. lia.
Qed.

Definition copies (x : option str) : heap := match x with Some x => [string_block x] | None => [] end.
Definition room_for (x : option str) : nat := match x with Some x => length x + 1 | None => 0 end.

Lemma copies_size x : heap_size (copies x) = room_for x.
Proof. destruct x as [x|]; [|reflexivity]. unfold copies, string_block. rewrite size_one, app_length, map_length. reflexivity. Qed.

Lemma copies_live x : live (copies x) = length (copies x).
Proof. now destruct x. Qed.

Lemma string_block_at h data h' : nonul data -> cstr_at (h ++ string_block data :: h') (mkPtr (length h) 0) data.
Proof.
  intros N. apply (cstr_block _ _ _ []); [|exact N]. rewrite nth_error_app2 by lia. now rewrite Nat.sub_diag.
Qed.

Lemma stands_word q : stands_for (Some (word_of q)) (Adr q).
Proof. destruct q as [q|]; cbn; [right; exists q|left]; auto. Qed.

Ltac perm := apply (Permutation_count_occ Nat.eq_dec); let x := fresh "x" in intros x; repeat (rewrite ?count_occ_app; cbn [count_occ app concat]);
  repeat match goal with |- context[if ?d then _ else _] => destruct d end; lia.

Section actions.

Context {al : allocator}.

Lemma copy_ok s own m q x : word_in s own m q x -> (N.of_nat m < 2 ^ 32)%N ->
  ends (fun h n => h = s_heap s /\ N.to_nat n <= room_for x)
       (fun q' s' => s' = grow s (copies x) /\ string_in (s_heap s') q' x /\ block_list [q'] = seq (length (s_heap s)) (length (copies x)))
       (c_copy q s).
Proof.
  intros W Lm. destruct q as [q|], x as [x|]; cbn in W; try tauto.
  - destruct W as (C & _ & L). unfold c_copy. eapply ends_bind.
    { eapply ends_weaken; [apply (strdup_ok s q x C); unfold fits, strlen; lia| |intros a s' H; exact H]. intros h n (-> & ->). split; [reflexivity|]. cbn [room_for]. unfold strlen. lia. }
    intros p s' (-> & -> & _). constructor. splits; auto. cbn [s_heap grow copies]. apply string_in_new. now apply cstr_at_nonul in C.
  - constructor. splits; auto. destruct s as [h w]. unfold grow. cbn. now rewrite app_nil_r.
Qed.

(** ** New structures *)

Lemma filter_init_ok s c : ends (fun h n => h = s_heap s /\ n = 56%N)
  (fun p s' => p = mkPtr (length (s_heap s)) 0 /\ s_heap s' = s_heap s ++ [blank 56] /\ same_but [length (s_heap s)] s s' /\
     content s' p [Adr None; Num c; Adr None; Adr None; Num 0; Num 0; Adr None])
  (c_filter_init c s).
Proof.
  unfold c_filter_init. eapply ends_bind.
  { eapply ends_weaken; [apply (new_ok s sizeof_filter_t FT_members)| |intros a s' HQ; exact HQ]. intros h k (-> & ->). auto. }
  intros p s1 (-> & -> & _).
  assert (C1 := given_content s sizeof_filter_t FT_members ltac:(apply Nat.leb_le; reflexivity)).
  step (clear_ok _ _ _ FT_members C1 ltac:(apply Nat.leb_le; reflexivity)).
  set (vs := [Adr None; Num 0; Adr None; Adr None; Num 0; Num 0; Adr None]).
  assert (C2 := cleared_content _ _ _ vs C1 eq_refl ltac:(unfold vs; repeat (apply Forall_cons; [cbn; auto|]); apply Forall_nil)).
  rewrite repeat_length in C2. set (p := mkPtr (length (s_heap s)) 0) in *.
  step (assign_ok _ p _ 1 (Int c) C2 ltac:(cbn; lia) : assign p FT_cleaner _ _ = _).
  assert (C3 := assigned_content _ p _ 1 (Int c) (Num c) C2 ltac:(left; reflexivity)). cbn [set_nth vs] in C3.
  constructor. splits; auto. intros b Nb. cbn. rewrite !update_other; auto; intros ->; apply Nb; now left.
Qed.

Lemma sequence_init_ok s own m q x : word_in s own m (Some q) (Some x) -> (N.of_nat m < 2 ^ 32)%N ->
  ends (fun h n => heap_size h + N.to_nat n <= heap_size (s_heap s) + 32 + (length x + 1))
  (fun p s' => p = mkPtr (length (s_heap s)) 0 /\ s_heap s' = s_heap s ++ [blank 32; string_block x] /\ same_but [length (s_heap s)] s s' /\
     content s' p [Adr None; Adr (Some (mkPtr (S (length (s_heap s))) 0)); Adr None; Adr None])
  (c_sequence_init q s).
Proof.
  intros (Cq & _ & Lx) Lm. unfold c_sequence_init. eapply ends_bind.
  { eapply ends_weaken; [apply (new_ok s sizeof_sequence_t SQ_members)| |intros a s' HQ; exact HQ]. intros h k (-> & ->). change (N.to_nat sizeof_sequence_t) with 32. lia. }
  intros p s1 (-> & -> & _).
  assert (C1 := given_content s sizeof_sequence_t SQ_members ltac:(apply Nat.leb_le; reflexivity)).
  step (clear_ok _ _ _ SQ_members C1 ltac:(apply Nat.leb_le; reflexivity)).
  set (vs := [Adr None; Adr None; Adr None; Adr None]).
  assert (C2 := cleared_content _ _ _ vs C1 eq_refl ltac:(unfold vs; repeat (apply Forall_cons; [cbn; auto|]); apply Forall_nil)).
  rewrite repeat_length in C2. set (p := mkPtr (length (s_heap s)) 0) in *.
  set (s2 := cleared (given s sizeof_sequence_t SQ_members) p SQ_members) in *.
  assert (H2 : s_heap s2 = s_heap s ++ [blank 32]) by reflexivity.
  assert (W2 : same_but [length (s_heap s)] s s2) by (intros b Nb; cbn; rewrite !update_other; auto; intros ->; apply Nb; now left).
  clearbody s2. eapply ends_bind.
  { eapply ends_weaken; [apply (strdup_ok s2 q x); [rewrite H2; now apply cstr_old|unfold fits, strlen; lia]| |intros a s' HQ; exact HQ].
    intros h k (-> & ->). rewrite H2, size_app. unfold blank. rewrite size_one, repeat_length. unfold strlen. lia. }
  intros copy s3 (-> & -> & _).
  assert (C3 := content_grow s2 [string_block x] _ _ C2).
  step (assign_ok _ p _ 1 (Ptr (mkPtr (length (s_heap s2)) 0)) C3 ltac:(cbn; lia) : assign p SQ_name _ _ = _).
  assert (C4 := assigned_content _ p _ 1 (Ptr (mkPtr (length (s_heap s2)) 0)) (Adr (Some (mkPtr (length (s_heap s2)) 0))) C3 ltac:(right; eauto)). cbn [set_nth vs] in C4.
  assert (E2 : length (s_heap s2) = S (length (s_heap s))) by (rewrite H2, app_length; cbn; lia). rewrite E2 in *.
  constructor. splits; auto.
  - cbn [s_heap assigned grow]. now rewrite H2, <- app_assoc.
  - intros b Nb. rewrite <- (W2 b Nb). cbn. apply update_other. intros ->. apply Nb. now left.
Qed.

Lemma config_init_ok s : ends (fun h n => h = s_heap s /\ n = 16%N)
  (fun p s' => p = mkPtr (length (s_heap s)) 0 /\ s_heap s' = s_heap s ++ [blank 16] /\ same_but [length (s_heap s)] s s' /\
     content s' p [Adr None; Adr None])
  (c_config_file_init s).
Proof.
  unfold c_config_file_init. eapply ends_bind.
  { eapply ends_weaken; [apply (new_ok s sizeof_config_file_t CF_members)| |intros a s' HQ; exact HQ]. intros h k (-> & ->). auto. }
  intros p s1 (-> & -> & _).
  assert (C1 := given_content s sizeof_config_file_t CF_members ltac:(apply Nat.leb_le; reflexivity)).
  step (clear_ok _ _ _ CF_members C1 ltac:(apply Nat.leb_le; reflexivity)).
  assert (C2 := cleared_content _ _ _ [Adr None; Adr None] C1 eq_refl ltac:(repeat (apply Forall_cons; [cbn; auto|]); apply Forall_nil)).
  constructor. splits; auto. intros b Nb. cbn. rewrite !update_other; auto; intros ->; apply Nb; now left.
Qed.

(** ** A filter *)

(** The arguments are for the filter [f]. *)
Definition arguments_for (s : store_t) (own : list nat) (m : nat) (a : arguments) (f : filter_t) : Prop :=
  exists b x rt, word_in s own m (a_builtin a) b /\ word_in s own m (a_filename a) x /\ a_remove_trailing a = (if rt : bool then 1 else 0)%Z /\
    f = make_filter (a_cleaner a) b x (a_max_length a) rt.

Lemma plain_for s own m c : arguments_for s own m (plain_arguments c) (plain_filter c).
Proof. exists None, None, false. cbn. auto. Qed.

Definition filter_size (f : filter_t) : nat := 56 + room_for (f_builtin f) + room_for (f_filename f).

Lemma make_ok s own m a f : arguments_for s own m a f -> (N.of_nat m < 2 ^ 32)%N ->
  ends (fun h n => heap_size h + N.to_nat n <= heap_size (s_heap s) + filter_size f)
       (fun p s' => exists more mine, p = mkPtr (length (s_heap s)) 0 /\ s_heap s' = s_heap s ++ more /\ live more = length more /\ heap_size more = filter_size f /\
          same_but [length (s_heap s)] s s' /\ filters_at s' [p] [f] None mine /\ Permutation mine (seq (length (s_heap s)) (length more)))
       (c_make_filter a s).
Proof.
  intros (b & x & rt & Wb & Wx & Rt & ->) Lm. unfold c_make_filter, filter_size. cbn [f_builtin f_filename make_filter]. eapply ends_bind.
  { eapply ends_weaken; [apply filter_init_ok| |intros p s' HQ; exact HQ]. intros h k (-> & ->). lia. }
  intros p s1 (-> & H1 & W1 & C1). set (p := mkPtr (length (s_heap s)) 0) in *.
  assert (Z1 : heap_size (s_heap s1) = heap_size (s_heap s) + 56) by (rewrite H1, size_app; unfold blank; rewrite size_one, repeat_length; reflexivity).
  assert (Keep : forall q o s', (exists h, s_heap s' = s_heap s ++ h) -> word_in s own m q o -> word_in s' own m q o).
  { intros q o s' (h & E). destruct q as [q|], o as [o|]; cbn; auto. intros (C & Nn & L). splits; auto. rewrite E. now apply cstr_old. }
  eapply ends_bind.
  { eapply ends_weaken; [apply (copy_ok s1 own m _ b); [apply Keep; eauto|exact Lm]| |intros q s' HQ; exact HQ]. intros h k (-> & L). lia. }
  intros qb s2 (-> & Sb & Bb). assert (C2 := content_grow s1 (copies b) _ _ C1).
  assert (Z2 : heap_size (s_heap s1 ++ copies b) = heap_size (s_heap s) + 56 + room_for b) by (rewrite size_app, copies_size; lia).
  assert (E2 : s_heap (grow s1 (copies b)) = s_heap s ++ [blank 56] ++ copies b) by (cbn [s_heap grow]; rewrite H1; now rewrite <- app_assoc).
  assert (W2 : same_but [length (s_heap s)] s (grow s1 (copies b))) by exact W1.
  change (s_heap s1 ++ copies b) with (s_heap (grow s1 (copies b))) in Z2. set (s2 := grow s1 (copies b)) in *. clearbody s2.
  step (assign_ok s2 p _ 3 (word_of qb) C2 ltac:(cbn; lia) : assign p FT_builtin _ s2 = _).
  assert (C3 := assigned_content s2 p _ 3 (word_of qb) (Adr qb) C2 (stands_word qb)). cbn [set_nth] in C3.
  assert (W3 : same_but [length (s_heap s)] s (assigned s2 p 3 (word_of qb))) by (intros i Ni; rewrite <- (W2 i Ni); apply update_other; intros ->; apply Ni; now left).
  change (s_heap s2) with (s_heap (assigned s2 p 3 (word_of qb))) in E2, Z2, Sb. set (s3 := assigned s2 p 3 (word_of qb)) in *. clearbody s3.
  eapply ends_bind.
  { eapply ends_weaken; [apply (copy_ok s3 own m _ x); [apply Keep; eauto|exact Lm]| |intros q s' HQ; exact HQ]. intros h k (-> & L). lia. }
  intros qx s4 (-> & Sx & Bx). assert (C4 := content_grow s3 (copies x) _ _ C3).
  assert (E4 : s_heap (grow s3 (copies x)) = s_heap s ++ [blank 56] ++ copies b ++ copies x) by (cbn [s_heap grow]; rewrite E2; now rewrite <- !app_assoc).
  assert (Sb4 : string_in (s_heap (grow s3 (copies x))) qb b) by (cbn [s_heap grow]; now apply string_in_old).
  assert (W4 : same_but [length (s_heap s)] s (grow s3 (copies x))) by exact W3.
  set (s4 := grow s3 (copies x)) in *. clearbody s4.
  step (assign_ok s4 p _ 2 (word_of qx) C4 ltac:(cbn; lia) : assign p FT_filename _ s4 = _).
  assert (C5 := assigned_content s4 p _ 2 (word_of qx) (Adr qx) C4 (stands_word qx)). cbn [set_nth] in C5.
  set (s5 := assigned s4 p 2 (word_of qx)) in *.
  set (z := Z.of_N (size_of (a_max_length a))).
  step (assign_ok s5 p _ 5 (Int z) C5 ltac:(cbn; lia) : assign p FT_max_length _ s5 = _).
  assert (C6 := assigned_content s5 p _ 5 (Int z) (Num z) C5 ltac:(left; auto)). cbn [set_nth] in C6.
  set (s6 := assigned s5 p 5 (Int z)) in *.
  step (assign_ok s6 p _ 4 (Int (a_remove_trailing a)) C6 ltac:(cbn; lia) : assign p FT_remove_trailing _ s6 = _).
  assert (C7 := assigned_content s6 p _ 4 (Int (a_remove_trailing a)) (Num (if rt then 1 else 0)%Z) C6 ltac:(left; now rewrite Rt)). cbn [set_nth] in C7.
  constructor. exists ([blank 56] ++ copies b ++ copies x), (p_block p :: block_list [qx; qb]). splits; auto.
  - rewrite !live_app, !app_length, !copies_live. reflexivity.
  - rewrite !size_app, !copies_size. unfold blank. rewrite size_one, repeat_length. change (N.to_nat 56) with 56. lia.
  - intros i Ni. rewrite <- (W4 i Ni). assert (i <> p_block p) by (intros ->; apply Ni; now left).
    transitivity (s_words s6 i); [now apply update_other|]. transitivity (s_words s5 i); [now apply update_other|]. now apply update_other.
  - cbn [filters_at first]. exists qx, qb, []. rewrite app_nil_r. splits; auto.
  - rewrite (flat_map_app _ [qx] [qb] : block_list [qx; qb] = block_list [qx] ++ block_list [qb]), Bx, Bb, E2, H1, !app_length. cbn [length Nat.add seq].
    constructor. rewrite seq_app. rewrite (Nat.add_1_r (length (s_heap s))). replace (length (s_heap s) + S (length (copies b))) with (S (length (s_heap s)) + length (copies b)) by lia. apply Permutation_app_comm.
Qed.

(** ** A sequence *)

Lemma app_inj_len {A} (a b a' b' : list A) : a ++ b = a' ++ b' -> length a = length a' -> a = a' /\ b = b'.
Proof. revert a'. induction a as [|x a IH]; intros [|y a']; cbn; try discriminate; auto. intros [= -> E] [= L]. destruct (IH _ E L) as (-> & ->). auto. Qed.

Lemma nonempty_room bs : forall h, NoDup bs -> (forall b, In b bs -> exists c cells, nth_error h b = Some (Some (c :: cells))) -> length bs <= heap_size h.
Proof.
  induction bs as [|b bs IH]; intros h ND T; [cbn; lia|]. apply NoDup_cons_iff in ND as (Nb & ND).
  destruct (T b ltac:(now left)) as (c & cells & E).
  assert (S : S (heap_size (set_block h b None)) <= heap_size h).
  { clear - E. revert h E. unfold heap_size, list_sum. induction b as [|b IH]; intros [|x h]; cbn [nth_error set_block map fold_right]; try discriminate.
    - intros [= ->]. cbn [block_size length]. lia.
    - intros E. specialize (IH h E). lia. }
  assert (length bs <= heap_size (set_block h b None)); [|cbn [length]; lia]. apply IH; [exact ND|].
  intros i I. destruct (T i ltac:(now right)) as (c' & cells' & E'). exists c', cells'. rewrite <- E'. apply set_other. intros ->. easy.
Qed.

Lemma sequences_room s ps qs last own fs : sequences_at s ps qs last own fs -> NoDup own -> length ps <= heap_size (s_heap s).
Proof.
  intros A ND. rewrite <- (map_length p_block ps). apply nonempty_room.
  - revert qs own fs A ND. induction ps as [|p ps IH]; intros [|q qs] own fs; cbn [sequences_at map]; try tauto; [constructor|].
    intros (nm & src & fps & fo & rest & fr & C & Hn & Hs & F & -> & -> & R) ND. apply NoDup_cons_iff in ND as (Np & ND). constructor.
    + intros I. apply in_map_iff in I as (x & E & I). apply Np. apply in_app_iff. right. rewrite <- E. now apply (sequences_heads _ _ _ _ _ _ _ R).
    + apply (IH _ _ _ R). now apply NoDup_r in ND.
  - clear ND. revert qs own fs A. induction ps as [|p ps IH]; intros [|q qs] own fs; cbn [sequences_at map]; [intros _ b []|tauto..|].
    intros (nm & src & fps & fo & rest & fr & C & Hn & Hs & F & -> & -> & R) b [<-|I]; [|eauto].
    destruct C as (_ & _ & [|c cells] & E & L); [cbn in L; lia|]. eauto.
Qed.

Definition unlike (nm : str) (qs : list sequence_t) : Prop := forall q, In q qs -> str_eqb (s_name q) nm = false.

Lemma find_rounds s name nm : cstr_at (s_heap s) name nm -> forall ps qs own fs fuel, sequences_at s ps qs None own fs -> length ps < fuel ->
  exists found, wrounds fuel (fun work =>
    match work with
    | None => wret (inr None)
    | Some w =>
      let$ n := ptr_at w SQ_name in
      let$ n := deref n in
      let$ same := bytes (c_equal n name) in
      if same : bool then wret (inr (Some w))
      else
        let$ next := ptr_at w SQ_next in
        wret (inl next)
    end) (first ps None) s = done (found, s) /\
  match found with
  | None => unlike nm qs
  | Some w => exists ps1 ps2 qs1 q qs2, ps = ps1 ++ w :: ps2 /\ qs = qs1 ++ q :: qs2 /\ length ps1 = length qs1 /\ unlike nm qs1 /\ str_eqb (s_name q) nm = true
  end.
Proof.
  intros Cn. induction ps as [|p ps IH]; intros [|q qs] own fs fuel; cbn [sequences_at first]; try tauto; (destruct fuel as [|fuel]; [cbn; lia|]); cbn [wrounds].
  - intros _ _. exists None. rewrite wbind_ret. split; [reflexivity|]. intros q [].
  - intros (n & src & fps & fo & rest & fr & C & Hn & Hs & F & -> & -> & R) L. rewrite wbind_assoc.
    step (ptr_at_ok s p _ 1 _ C eq_refl : ptr_at p SQ_name s = _). rewrite wbind_assoc. cbn [deref]. rewrite wbind_ret, wbind_assoc.
    destruct Hn as (_ & Hn). assert (E := bytes_done _ s _ _ (equal_ok (s_heap s) n (s_name q) name nm Hn Cn)). destruct s as [h w] eqn:Es. cbn [s_heap s_words] in E. rewrite <- Es in *. step E.
    destruct (str_eqb (s_name q) nm) eqn:Q.
    + rewrite wbind_ret. exists (Some p). split; [reflexivity|]. exists [], ps, [], q, qs. splits; auto. intros x [].
    + rewrite wbind_assoc. step (ptr_at_ok s p _ 0 _ C eq_refl : ptr_at p SQ_next s = _). rewrite wbind_ret.
      destruct (IH _ _ _ fuel R ltac:(cbn in L; lia)) as (found & G & X). exists found. split; [exact G|]. destruct found as [y|].
      * destruct X as (ps1 & ps2 & qs1 & q' & qs2 & -> & -> & Ln & U & M). exists (p :: ps1), ps2, (q :: qs1), q', qs2. splits; auto; [cbn; lia|].
        intros x [<-|I]; auto.
      * intros x [<-|I]; auto.
Qed.

Lemma find_ok s ps qs own fs name nm : sequences_at s ps qs None own fs -> NoDup own -> cstr_at (s_heap s) name nm ->
  exists found, c_find_sequence (first ps None) name s = done (found, s) /\
  match found with
  | None => unlike nm qs
  | Some w => exists ps1 ps2 qs1 q qs2, ps = ps1 ++ w :: ps2 /\ qs = qs1 ++ q :: qs2 /\ length ps1 = length qs1 /\ unlike nm qs1 /\ str_eqb (s_name q) nm = true
  end.
Proof. intros A ND C. apply (find_rounds s name nm C ps qs own fs); [exact A|]. pose proof (sequences_room _ _ _ _ _ _ A ND). lia. Qed.

Lemma put_new nm fs src qs : unlike nm qs -> put_sequence nm fs src qs = qs ++ [mkSequence nm fs (Some src)].
Proof. induction qs as [|q qs IH]; intros U; cbn; [reflexivity|]. rewrite (U q) by now left. f_equal. apply IH. intros x I. apply U. now right. Qed.

Lemma put_old nm fs src qs q qs' : unlike nm qs -> str_eqb (s_name q) nm = true -> put_sequence nm fs src (qs ++ q :: qs') = qs ++ set_sequence fs src q :: qs'.
Proof. induction qs as [|x qs IH]; intros U E; cbn; [now rewrite E|]. rewrite (U x) by now left. f_equal. apply IH; auto. intros y I. apply U. now right. Qed.

(** The filters of a sequence are replaced. *)
Lemma fill_ok {A} (r : A) s ps1 w ps2 qs1 q qs2 own fs fps fl fown source m src frame : sequences_at s (ps1 ++ w :: ps2) (qs1 ++ q :: qs2) None own fs -> length ps1 = length qs1 ->
  filters_at s fps fl None fown -> NoDup (own ++ concat fs ++ fown) -> word_in s frame m (Some source) (Some src) -> (N.of_nat m < 2 ^ 32)%N ->
  ends (fun h n => h = s_heap s /\ n = (strlen src + 1)%N)
    (fun a s' => a = r /\ exists own' fs' dead, sequences_at s' (ps1 ++ w :: ps2) (qs1 ++ set_sequence fl src q :: qs2) None own' fs' /\
      s_heap s' = s_heap s ++ [string_block src] /\ same_but [p_block w] s s' /\ In (p_block w) own /\
      length dead = definition_blocks q /\ Permutation (own ++ concat fs ++ fown ++ [length (s_heap s)]) (own' ++ concat fs' ++ dead))
    ((let$ _ := assign w SQ_filters (word_of (first fps None)) in
      let$ source := deref (Some source) in
      let$ copy := bytes (c_strdup source) in
      let$ _ := assign w SQ_source_filename (Ptr copy) in
      wret r) s).
Proof.
  intros Hq Ln F ND (Cs & _ & Lx) Lm.
  destruct (sequences_split _ _ _ _ _ _ _ _ Hq) as (ps1' & w' & ps2' & own1 & own2 & fs1 & fs2 & Ep & -> & -> & Ln' & A1 & A2).
  apply app_inj_len in Ep as (<- & [= <- <-]); [|lia].
  cbn [sequences_at] in A2. destruct A2 as (nm & so & fps0 & fo & rest & fr & C & Hn & Hs & F0 & -> & -> & R).
  set (s1 := assigned s w 2 (word_of (first fps None))).
  step (assign_ok s w _ 2 (word_of (first fps None)) C ltac:(cbn; lia) : assign w SQ_filters _ s = _).
  assert (C1 := assigned_content s w _ 2 _ _ C (stands_word (first fps None))). fold s1 in C1. cbn [set_nth] in C1.
  cbn [deref]. rewrite wbind_ret. eapply ends_bind.
  { eapply ends_weaken; [apply (strdup_ok s1 source src Cs); unfold fits, strlen; lia| |intros a s' H; exact H]. intros h n (-> & ->). auto. }
  intros copy s2 (-> & -> & _). assert (C2 := content_grow s1 [string_block src] _ _ C1).
  step (assign_ok _ w _ 3 (Ptr (mkPtr (length (s_heap s1)) 0)) C2 ltac:(cbn; lia) : assign w SQ_source_filename _ _ = _).
  assert (C3 := assigned_content _ w _ 3 _ _ C2 (stands_word (Some (mkPtr (length (s_heap s1)) 0)))). cbn [set_nth word_of] in C3.
  change (s_heap s1) with (s_heap s) in *. set (s3 := assigned (grow s1 [string_block src]) w 3 (Ptr (mkPtr (length (s_heap s)) 0))) in *.
  assert (Sm : same_but [p_block w] s s3).
  { intros b Nb. assert (b <> p_block w) by (intros ->; apply Nb; now left). transitivity (s_words s1 b); [now apply update_other|now apply update_other]. }
  assert (Keep : forall b, there s b -> b <> p_block w -> same_at s s3 b).
  { intros b T Nb. split; [|apply Sm; intros [E|[]]; congruence]. change (s_heap s3) with (s_heap s ++ [string_block src]). apply nth_error_app1. now apply there_old. }
  constructor. split; [reflexivity|]. exists (own1 ++ p_block w :: block_list [Some nm; Some (mkPtr (length (s_heap s)) 0)] ++ rest), (fs1 ++ fown :: fr), (block_list [so] ++ fo).
  assert (Bso : block_list [Some nm; so] = p_block nm :: block_list [so]) by reflexivity.
  assert (Bnew : block_list [Some nm; Some (mkPtr (length (s_heap s)) 0)] = [p_block nm; length (s_heap s)]) by reflexivity.
  assert (K : forall b, In b (own1 ++ concat fs1) \/ In b (block_list [Some nm; so] ++ rest) \/ In b (concat fr) \/ In b fown -> b <> p_block w).
  { intros b I ->. apply (NoDup_count_occ Nat.eq_dec) with (x := p_block w) in ND.
    rewrite concat_app in ND. cbn [concat] in ND. rewrite !count_occ_app in ND. cbn [count_occ] in ND. destruct (Nat.eq_dec (p_block w) (p_block w)) as [_|X]; [|easy].
    rewrite !count_occ_app in ND.
    rewrite in_app_iff, (in_app_iff _ rest) in I. rewrite !(count_occ_In Nat.eq_dec) in I. lia. }
  splits; auto.
  - apply sequences_join.
    + cbn [first]. apply (sequences_same s); [| |exact A1]; intros b I; apply Keep; try (apply K; rewrite !in_app_iff; tauto);
        apply (sequences_there _ _ _ _ _ _ A1); apply in_app_iff; tauto.
    + cbn [sequences_at]. exists nm, (Some (mkPtr (length (s_heap s)) 0)), fps, fown, rest, fr. splits; auto.
      * apply (string_same s); [|exact Hn]. intros b I. apply Keep; [exact (string_there _ _ _ _ Hn I)|]. apply K. right. left. apply in_app_iff. left. cbn in *. tauto.
      * cbn [set_sequence s_source]. apply (string_in_new (s_heap s)). now apply cstr_at_nonul in Cs.
      * cbn [set_sequence s_filters]. apply (filters_same s); [|exact F]. intros b I. apply Keep; [exact (filters_there _ _ _ _ _ F _ I)|]. apply K. tauto.
      * apply (sequences_same s); [| |exact R]; intros b I; apply Keep; try (apply K; rewrite !in_app_iff; tauto); apply (sequences_there _ _ _ _ _ _ R); apply in_app_iff; tauto.
  - apply in_app_iff. right. now left.
  - rewrite app_length. unfold definition_blocks. rewrite (filters_count _ _ _ _ _ F0). destruct so, (s_source q); cbn in Hs |- *; try tauto; lia.
  - rewrite Bso, Bnew, !concat_app. cbn [concat]. perm.
Qed.

End actions.
