(** * Proofs about the options in memory *)

From Verif Require Import Base BaseFacts Stdio StdioFacts Filelist FileSpec FilelistProofs Prog ProgFacts Warnings File Options OptionsProofs MainProofs Startup Mem MemFacts MemSpec Words WordsSpec WordsFacts
  CFilelist FilesSpec CFilelistProofs LinkedSpec CConfigProofs CConfigProofs5 CConfigProofs7 CLoadProofs4 CReviewSpec CReviewProofs CRunProofs CWorkSpec COptions COptionsSpec.

Local Open Scope nat_scope.

Ltac step L := rewrite (wbind_done _ _ _ _ _ L).

(** ** getopt_long with addresses *)

Section getopt.

Context (h : heap) (B : nat).

Definition alike_code (x : c_code * option str) (y : code * option str) : Prop :=
  snd x = snd y /\
  match fst x, fst y with
  | CLong n, Long m => n = m
  | CShort c p, Short d t => c = d /\ text_in h p t /\ forall t', t = Some t' -> length t' <= B
  | _, _ => False
  end.

Lemma alike_plain c message : alike_code (CShort c None, message) (Short c None, message).
Proof. split; [reflexivity|]. cbn. splits; auto. intros t [=]. Qed.

Lemma cluster_alike prog s : forall p, cstr_at h p s -> length s <= B ->
  Forall2 alike_code (fst (c_cluster prog p s)) (fst (cluster_says prog letters s)) /\ snd (c_cluster prog p s) = snd (cluster_says prog letters s) /\
  length (fst (c_cluster prog p s)) + (if snd (c_cluster prog p s) then 1 else 0) <= length s.
Proof.
  induction s as [|c r IH]; intros p C L; cbn [c_cluster cluster_says length] in *; [splits; auto; constructor|].
  destruct (cstr_cons _ _ _ _ C) as (_ & C' & _).
  destruct (takes_argument letters c) as [[]|].
  - destruct r as [|d r]; cbn [fst snd length]; [splits; auto|]. splits; auto; [|lia]. constructor; [|constructor]. split; [reflexivity|]. cbn [fst snd]. splits; auto.
    intros t' [= <-]. cbn [length] in *. lia.
  - specialize (IH _ C' ltac:(lia)). destruct (c_cluster prog (plus p 1) r) as [l m], (cluster_says prog letters r) as [l' m']. cbn [fst snd length] in *. destruct IH as (F & -> & Ln).
    splits; auto; [|lia]. constructor; [apply alike_plain|exact F].
  - specialize (IH _ C' ltac:(lia)). destruct (c_cluster prog (plus p 1) r) as [l m], (cluster_says prog letters r) as [l' m']. cbn [fst snd length] in *. destruct IH as (F & -> & Ln).
    splits; auto; [|lia]. constructor; [apply alike_plain|exact F].
Qed.

Lemma long_alike prog arg : alike_code (c_long_code prog arg) (long_code_says prog longopts arg).
Proof.
  unfold c_long_code. assert (X : match fst (long_code_says prog longopts arg) with Short _ t => t = None | Long _ => True end).
  { unfold long_code_says. destruct (upto_equals arg) as [name eq].
    assert (Y : forall r, match coded r with Short _ t => t = None | Long _ => True end) by (intros [|]; reflexivity || exact I).
    destruct (find _ longopts) as [o|]; [destruct eq; [reflexivity|apply Y]|]. destruct (filter _ longopts) as [|o [|]]; [reflexivity|destruct eq; [reflexivity|apply Y]|reflexivity]. }
  destruct (long_code_says prog longopts arg) as [[c t|n] message]; cbn [fst no_optarg] in *; [subst t; apply alike_plain|]. now split.
Qed.

Definition there_at (a : ptr * str) : Prop := cstr_at h (fst a) (snd a) /\ length (snd a) <= B.

Lemma getopt_alike prog posix n : forall args skipped, length args <= n -> Forall there_at args -> Forall there_at skipped ->
  let r := c_getopt_long prog posix args skipped in let r' := getopt_long_says prog letters longopts posix (map snd args) (map snd skipped) in
  Forall2 alike_code (fst r) (fst r') /\ map snd (snd r) = snd r' /\ Forall there_at (snd r) /\ (forall a, In a (snd r) -> In a (args ++ skipped)) /\
  length (fst r) <= written (map snd args) /\ length (snd r) <= length args + length skipped.
Proof.
  induction n as [|n IH]; intros [|[p a] rest] skipped Ln Fa Fs; cbn [length] in Ln; try lia;
    try (cbn; splits; auto; lia).
  cbn [c_getopt_long getopt_long_says map fst snd].
  inversion Fa as [|? ? Ta Fr]; subst.
  assert (W : written (a :: map snd rest) = S (length a) + written (map snd rest)) by reflexivity.
  assert (Skip : let r := c_getopt_long prog posix rest (skipped ++ [(p, a)]) in let r' := getopt_long_says prog letters longopts posix (map snd rest) (map snd skipped ++ [a]) in
    Forall2 alike_code (fst r) (fst r') /\ map snd (snd r) = snd r' /\ Forall there_at (snd r) /\ (forall a0, In a0 (snd r) -> In a0 (((p, a) :: rest) ++ skipped)) /\
    length (fst r) <= written (a :: map snd rest) /\ length (snd r) <= S (length rest) + length skipped).
  { specialize (IH rest (skipped ++ [(p, a)]) ltac:(lia) Fr ltac:(apply Forall_app; auto)). rewrite map_app in IH. cbn [map snd] in IH. cbv zeta in IH |- *.
    destruct IH as (I1 & I2 & I3 & I4 & I5 & I6). splits; auto.
    - intros x I. apply I4 in I. cbn [app In]. rewrite !in_app_iff in *. cbn [In] in I. tauto.
    - rewrite W. lia.
    - rewrite app_length in I6. cbn [length] in I6. lia. }
  assert (Stay : Forall2 alike_code [] [] /\ map snd ((p, a) :: rest) = a :: map snd rest /\ Forall there_at ((p, a) :: rest) /\ (forall a0, In a0 ((p, a) :: rest) -> In a0 (((p, a) :: rest) ++ skipped)) /\
    0 <= written (a :: map snd rest) /\ length ((p, a) :: rest) <= S (length rest) + length skipped).
  { splits; auto; [intros x I; apply in_app_iff; now left|lia|cbn [length]; lia]. }
  destruct a as [|c [|d r]]; [destruct posix; [exact Stay|exact Skip]|destruct posix; [exact Stay|exact Skip]|].
  destruct (negb (beq c "-")); [destruct posix; [exact Stay|exact Skip]|]. clear Skip Stay.
  destruct (beq d "-").
  { destruct r as [|e r]; cbn [fst snd length].
    - splits; auto; try lia; [now rewrite map_app|now apply Forall_app|intros x I; cbn; rewrite !in_app_iff in *; tauto|rewrite app_length; lia].
    - specialize (IH rest skipped ltac:(lia) Fr Fs). cbv zeta in IH. destruct (c_getopt_long prog posix rest skipped) as [l fl], (getopt_long_says prog letters longopts posix (map snd rest) (map snd skipped)) as [l' fl'].
      cbn [fst snd] in *. destruct IH as (I1 & I2 & I3 & I4 & I5 & I6). splits; auto; [constructor; [apply long_alike|exact I1]|intros x I; cbn; right; auto|cbn [length]; lia|lia]. }
  destruct Ta as (Ca & La). cbn [fst snd] in Ca, La. destruct (cstr_cons _ _ _ _ Ca) as (_ & Ca' & _).
  destruct (cluster_alike prog (d :: r) (plus p 1) Ca' ltac:(cbn [length] in *; lia)) as (K1 & K2 & K3).
  destruct (c_cluster prog (plus p 1) (d :: r)) as [codes missing], (cluster_says prog letters (d :: r)) as [codes' missing']. cbn [fst snd] in *. subst missing'.
  assert (Lr : length (c :: d :: r) = S (length (d :: r))) by reflexivity.
  destruct missing as [ms|].
  - destruct rest as [|[v w] rest].
    + cbn [fst snd map]. splits; auto.
      * apply Forall2_app; [exact K1|]. constructor; [apply alike_plain|constructor].
      * intros x I. cbn. right. exact I.
      * cbn [map] in W. rewrite W, app_length. cbn [length] in *. lia.
    + inversion Fr as [|? ? Tv Fr']; subst. cbn [length] in Ln. specialize (IH rest skipped ltac:(lia) Fr' Fs). cbv zeta in IH. cbn [map fst snd].
      destruct (c_getopt_long prog posix rest skipped) as [l fl], (getopt_long_says prog letters longopts posix (map snd rest) (map snd skipped)) as [l' fl'].
      cbn [fst snd] in *. destruct IH as (I1 & I2 & I3 & I4 & I5 & I6). splits; auto.
      * apply Forall2_app; [exact K1|]. constructor; [|exact I1]. split; [reflexivity|]. cbn [fst snd]. destruct Tv as (Cv & Lv). splits; auto. intros t' [= <-]. exact Lv.
      * intros x I. cbn. right. right. auto.
      * cbn [map snd] in W. rewrite W. change (written (w :: map snd rest)) with (S (length w) + written (map snd rest)). rewrite app_length. cbn [length] in *. lia.
      * cbn [length]. lia.
  - specialize (IH rest skipped ltac:(lia) Fr Fs). cbv zeta in IH. destruct (c_getopt_long prog posix rest skipped) as [l fl], (getopt_long_says prog letters longopts posix (map snd rest) (map snd skipped)) as [l' fl'].
    cbn [fst snd] in *. destruct IH as (I1 & I2 & I3 & I4 & I5 & I6). splits; auto; [now apply Forall2_app|intros x I; cbn; right; auto|idtac|cbn [length]; lia].
    rewrite app_length. lia.
Qed.

End getopt.

(** ** The loop over the options *)

Lemma read_all_ok args argv s : Forall2 (cstr_at (s_heap s)) args argv -> c_read_all args s = done (combine args argv, s).
Proof.
  intros F. induction F as [|p a args argv C F IH]; [reflexivity|]. cbn [c_read_all combine].
  step (bytes_done _ _ _ _ (read_ok _ _ _ C)). rewrite store_eta. step IH. reflexivity.
Qed.

Lemma combine_snd {A B} (P : A -> B -> Prop) l l' : Forall2 P l l' -> map snd (combine l l') = l'.
Proof. induction 1; cbn; congruence. Qed.

Lemma said_both {A B} {al : allocator} (R R' : heap -> N -> Prop) (Q : B -> A -> store_t -> Prop) o (t : talk unit) pure (k : unit -> wmem A) s :
  t = (o, Ok tt) -> follows R R' Q pure (k tt s) -> follows R R' Q (let% _ := t in pure) (wbind (saying t) k s).
Proof.
  intros -> F. unfold wbind, saying. cbn [tbind done quietly]. rewrite app_nil_r. destruct pure as [po pr], (k tt s) as [ko kr] eqn:E.
  exact (follows_prefix _ _ _ o _ _ F).
Qed.

Lemma print_out_says x : exists o, print_out x = (o, Ok tt).
Proof. destruct x; eexists; reflexivity. Qed.

Lemma said_exit {A B} {al : allocator} (R R' : heap -> N -> Prop) (Q : B -> A -> store_t -> Prop) o (t : talk unit) c s :
  t = (o, Ok tt) -> follows R R' Q (let% _ := t in quietly (Exit c)) (wbind (saying t) (fun _ => w_exit_with c) s).
Proof. intros E. apply (said_both _ _ _ o); [exact E|]. now apply follows_exit. Qed.

Section loop.

Context {al : allocator} (s0 : store_t) (p : ptr) (P0 : length (s_heap s0) <= p_block p).

Definition in_hand (o : options_t) (s : store_t) : Prop :=
  extends s0 s /\ o_files o = None /\ exists name check, content s p (option_values o None None name check None) /\
    text_in (s_heap s) name (o_sequence_name o) /\ text_in (s_heap s) check (o_check_config_file o).

Lemma assigned_extends s i w : extends s0 s -> extends s0 (assigned s p i w).
Proof. intros (M & W). split; [exact M|]. intros b L. cbn [assigned s_words]. rewrite update_other by lia. auto. Qed.

Lemma in_hand_set o o' s i w v name check name' check' :
  extends s0 s -> content s p (option_values o None None name check None) -> i < 12 -> stands_for (Some w) v ->
  set_nth (option_values o None None name check None) i v = option_values o' None None name' check' None -> o_files o' = None ->
  text_in (s_heap s) name' (o_sequence_name o') -> text_in (s_heap s) check' (o_check_config_file o') ->
  assign p i w s = done (tt, assigned s p i w) /\ in_hand o' (assigned s p i w) /\ s_heap (assigned s p i w) = s_heap s.
Proof.
  intros X C L St E F T1 T2. splits; [exact (assign_ok s p _ i w C L)| |reflexivity]. split; [now apply assigned_extends|]. split; [exact F|].
  exists name', check'. split; [|auto]. rewrite <- E. now apply assigned_content.
Qed.

Lemma grow_extends s m : extends s0 s -> extends s0 (grow s m).
Proof. intros ((m' & E) & W). split; [exists (m' ++ m); cbn; now rewrite E, app_assoc|exact W]. Qed.

Lemma text_in_old h h' q x : text_in h q x -> text_in (h ++ h') q x.
Proof. destruct q, x; cbn; auto. apply cstr_old. Qed.

Lemma text_extends s s' q x : extends s s' -> text_in (s_heap s) q x -> text_in (s_heap s') q x.
Proof. destruct q, x; cbn; auto. apply extends_cstr. Qed.

Context (B room : nat) (B1 : (N.of_nat B + 1 < 2 ^ 64)%N).

Definition step_of (o : options_t) (s : store_t) (o' : options_t) (_ : unit) (s' : store_t) : Prop :=
  in_hand o' s' /\ heap_size (s_heap s') <= heap_size (s_heap s) + (B + 1) /\ (o_verbose o' <= o_verbose o + 1)%N.

Lemma set_ok o o' s i w v : in_hand o s -> i < 12 -> stands_for (Some w) v ->
  (forall name check, set_nth (option_values o None None name check None) i v = option_values o' None None name check None) -> o_files o' = o_files o ->
  o_sequence_name o' = o_sequence_name o -> o_check_config_file o' = o_check_config_file o -> (o_verbose o' <= o_verbose o + 1)%N ->
  follows (within s0 room) (fun _ _ => False) (step_of o s) (done o') (assign p i w s).
Proof.
  intros (X & F & name & check & C & T1 & T2) L St E F' N1 N2 V. 
  destruct (in_hand_set o o' s i w v name check name check X C L St (E _ _)) as (E1 & I & H); try congruence.
  rewrite E1. eapply follows_done; [reflexivity|]. unfold step_of. splits; [exact I|rewrite H; lia|exact V].
Qed.

Lemma copied o o' s i q x : in_hand o s -> i = 9 \/ i = 10 -> cstr_at (s_heap s0) q x -> length x <= B -> heap_size (s_heap s) + (B + 1) <= heap_size (s_heap s0) + room ->
  o' = (if i =? 9 then set_sequence_name x o else set_check_config_file x o) ->
  follows (within s0 room) (fun _ _ => False) (step_of o s) (done o')
    ((let$ optarg := deref (Some q) in let$ copy := bytes (c_strdup optarg) in assign p i (Ptr copy)) s).
Proof.
  intros (X & F & name & check & C & T1 & T2) Hi Cq L Rm ->. step (deref_ok q s).
  pose proof (extends_cstr _ _ _ _ X Cq) as Cs.
  assert (Fx : MemSpec.fits x) by (unfold MemSpec.fits, strlen; lia).
  eapply follows_ends; [exact (strdup_ok s q x Cs Fx)| |].
  { intros h n (-> & ->). unfold within, strlen. lia. }
  intros a s1 (-> & -> & _).
  assert (New : cstr_at (s_heap (grow s [string_block x])) (mkPtr (length (s_heap s)) 0) x) by (eexists _, []; cbn [p_block grow s_heap]; rewrite nth_last; splits; [reflexivity|reflexivity|exact (cstr_at_nonul _ _ _ Cs)]).
  assert (Sz : heap_size (s_heap (grow s [string_block x])) <= heap_size (s_heap s) + (B + 1)).
  { cbn [grow s_heap]. rewrite size_app. unfold string_block. rewrite size_one, app_length, map_length. cbn [length]. lia. }
  pose proof (content_grow s [string_block x] _ _ C) as C'. pose proof (grow_extends s [string_block x] X) as X'.
  pose proof (text_in_old _ [string_block x] _ _ T1) as T1'. pose proof (text_in_old _ [string_block x] _ _ T2) as T2'.
  destruct Hi as [-> | ->]; cbn [Nat.eqb].
  - destruct (in_hand_set o (set_sequence_name x o) _ 9 (Ptr (mkPtr (length (s_heap s)) 0)) (Adr (Some (mkPtr (length (s_heap s)) 0))) name check (Some (mkPtr (length (s_heap s)) 0)) check X' C' ltac:(lia)) as (E1 & I & H); auto; [right; eauto|].
    rewrite E1. eapply follows_done; [reflexivity|]. unfold step_of. splits; [exact I|rewrite H; exact Sz|cbn; lia].
  - destruct (in_hand_set o (set_check_config_file x o) _ 10 (Ptr (mkPtr (length (s_heap s)) 0)) (Adr (Some (mkPtr (length (s_heap s)) 0))) name check name (Some (mkPtr (length (s_heap s)) 0)) X' C' ltac:(lia)) as (E1 & I & H); auto; [right; eauto|].
    rewrite E1. eapply follows_done; [reflexivity|]. unfold step_of. splits; [exact I|rewrite H; exact Sz|cbn; lia].
Qed.

Ltac settle := repeat match goal with
  | |- context [beq ?a ?b] => let v := eval vm_compute in (beq a b) in change (beq a b) with v
  | |- context [existsb (beq ?a) ?b] => let v := eval vm_compute in (existsb (beq a) b) in change (existsb (beq a) b) with v
  end; cbv iota.

Lemma code_ok pkg c c' o s : alike_code (s_heap s0) B (c', None) (c, None) -> in_hand o s -> (Z.of_N (o_verbose o) < int_max)%Z ->
  heap_size (s_heap s) + (B + 1) <= heap_size (s_heap s0) + room ->
  follows (within s0 room) (fun _ _ => False) (step_of o s) (option_code_says pkg c o) (c_option_code pkg p c' s).
Proof.
  intros (_ & A) I V Rm. cbn [fst] in A.
  assert (Us : c_usage p s = done (usage o, s) /\ c_help p s = done (help o, s)).
  { destruct I as (X & F & name & check & C & _). unfold c_usage, c_help, usage, help.
    split; step (int_at_ok s p _ 1 _ C eq_refl : int_at p OP_is_inline_bin s = _); now destruct (o_is_inline_bin o). }
  destruct Us as (Eu & Eh).
  destruct c as [l t|n], c' as [l' q|n']; cbn [snd] in A; try contradiction; [destruct A as (-> & T & Ln)|subst n']; unfold c_option_code, option_code_says.
  - unfold option_code.
    assert (Cases : beq l "h" = true \/ beq l "f" = true \/ beq l "L" = true \/ beq l "n" = true \/ beq l "r" = true \/ beq l "s" = true \/ beq l "v" = true \/ beq l "V" = true \/ beq l "?" = true \/
      existsb (beq l) (bs "hfLnrsvV?") = false /\ beq l "h" = false /\ beq l "f" = false /\ beq l "L" = false /\ beq l "n" = false /\ beq l "r" = false /\ beq l "s" = false /\ beq l "v" = false /\ beq l "V" = false /\ beq l "?" = false).
    { cbn [existsb bs list_byte_of_string]. clear. destruct l; auto 20; repeat (first [left; reflexivity|right]); repeat split. }
    destruct Cases as [E|[E|[E|[E|[E|[E|[E|[E|[E|(E0 & E1 & E2 & E3 & E4 & E5 & E6 & E7 & E8 & E9)]]]]]]]]]; [apply beq_eq in E; subst l .. |].
    + settle. step Eu. step Eh. destruct (print_out_says (usage o ++ [eol] ++ help o)) as (x & Ex). now apply (said_exit _ _ _ x).
    + destruct t as [t|], q as [q|]; cbn [text_in] in T; try contradiction; [|now apply follows_ub]. exact (copied o (set_check_config_file t o) s 10 q t I (or_intror eq_refl) T (Ln _ eq_refl) Rm eq_refl).
    + exact (set_ok o (set_list_sequences o) s 3 (Int 1) (Num 1) I ltac:(lia) (or_introl eq_refl) (fun _ _ => eq_refl) eq_refl eq_refl eq_refl ltac:(cbn; lia)).
    + exact (set_ok o (set_dry_run o) s 0 (Int 1) (Num 1) I ltac:(lia) (or_introl eq_refl) (fun _ _ => eq_refl) eq_refl eq_refl eq_refl ltac:(cbn; lia)).
    + exact (set_ok o (set_recurse o) s 4 (Int 1) (Num 1) I ltac:(lia) (or_introl eq_refl) (fun _ _ => eq_refl) eq_refl eq_refl eq_refl ltac:(cbn; lia)).
    + destruct t as [t|], q as [q|]; cbn [text_in] in T; try contradiction; [|now apply follows_ub]. exact (copied o (set_sequence_name t o) s 9 q t I (or_introl eq_refl) T (Ln _ eq_refl) Rm eq_refl).
    + pose proof I as (X & F & name & check & C & _). cbn [beq]. change (follows (within s0 room) (fun _ _ => False) (step_of o s) (done (more_verbose o)) (incr p OP_verbose s)).
      rewrite (incr_ok s p _ 6 _ C eq_refl V : incr p OP_verbose s = _). rewrite <- (assign_ok s p _ 6 _ C ltac:(cbn; lia)).
      apply (set_ok o (more_verbose o) s 6 _ (Num (Z.of_N (o_verbose o + 1)))); auto; [lia|left; do 2 f_equal; lia|cbn; lia].
    + settle. destruct (print_out_says (pkg ++ [eol])) as (x & Ex). now apply (said_exit _ _ _ x).
    + settle. step Eu. destruct (print_out_says (usage o)) as (x & Ex). now apply (said_exit _ _ _ x).
    + rewrite E0, E1, E2, E3, E4, E5, E6, E7, E8, E9. eapply said_exit. reflexivity.
  - unfold aloud, option_code. destruct (n =? LONG_OPTION_INLINE)%N; [|destruct (n =? LONG_OPTION_RECURSIVE)%N; [|destruct (n =? LONG_OPTION_SPECIAL)%N]].
    * exact (set_ok o (set_inline_mode o) s 2 (Int 1) (Num 1) I ltac:(lia) (or_introl eq_refl) (fun _ _ => eq_refl) eq_refl eq_refl eq_refl ltac:(cbn; lia)).
    * exact (set_ok o (set_recurse o) s 4 (Int 1) (Num 1) I ltac:(lia) (or_introl eq_refl) (fun _ _ => eq_refl) eq_refl eq_refl eq_refl ltac:(cbn; lia)).
    * exact (set_ok o (set_special o) s 5 (Int 1) (Num 1) I ltac:(lia) (or_introl eq_refl) (fun _ _ => eq_refl) eq_refl eq_refl eq_refl ltac:(cbn; lia)).
    * now apply follows_ub.
Qed.

Lemma codes_ok pkg cs' cs : Forall2 (alike_code (s_heap s0) B) cs' cs -> forall o s, in_hand o s -> (Z.of_N (o_verbose o) + Z.of_nat (length cs') <= int_max)%Z ->
  heap_size (s_heap s) + length cs' * (B + 1) <= heap_size (s_heap s0) + room ->
  follows (within s0 room) (fun _ _ => False) (fun o' _ s' => in_hand o' s' /\ heap_size (s_heap s') <= heap_size (s_heap s) + length cs' * (B + 1))
    (option_codes_says pkg cs o) (c_option_codes pkg p cs' s).
Proof.
  induction 1 as [|[c' m'] [c m] cs' cs A F IH]; intros o s I V Rm; cbn [c_option_codes option_codes_says].
  { eapply follows_done; [reflexivity|]. split; [exact I|lia]. }
  cbn [length] in *. destruct A as (Em & A). cbn [snd] in Em. subst m'.
  assert (Body : follows (within s0 room) (fun _ _ => False) (fun o' _ s' => in_hand o' s' /\ heap_size (s_heap s') <= heap_size (s_heap s) + S (length cs') * (B + 1))
    (let% o := option_code_says pkg c o in option_codes_says pkg cs o) ((let$ _ := c_option_code pkg p c' in c_option_codes pkg p cs') s)).
  { eapply follows_bind; [apply (code_ok pkg c c' o s); [split; [reflexivity|exact A]|exact I|lia|lia]|]. intros o1 [] s1 (I1 & S1 & V1).
    eapply follows_weaken; [apply (IH o1 s1 I1); lia|auto|auto|]. cbn beta. intros o2 _ s2 (I2 & S2). split; [exact I2|lia]. }
  destruct m as [m|].
  - eapply said_both; [reflexivity|exact Body].
  - rewrite wbind_ret. rewrite tbind_done. exact Body.
Qed.

End loop.

(** ** The files *)

Section files.

Context {al : allocator} (s1 : store_t) (p : ptr) (P1 : p_block p < length (s_heap s1)).

Definition listing (vs : list value) (l : ptr) (files : list str) (max : nat) (own : list nat) (s : store_t) : Prop :=
  content s p vs /\ list_at s l files max 0 own /\ max <= length files + 16 /\ (forall b, In b own -> length (s_heap s1) <= b) /\ length (s_heap s1) <= length (s_heap s) /\
  forall b, b < length (s_heap s1) -> nth_error (s_heap s) b = nth_error (s_heap s1) b /\ (b <> p_block p -> s_words s b = s_words s1 b).

Lemma cstr_nth h h' q x : nth_error h' (p_block q) = nth_error h (p_block q) -> cstr_at h q x -> cstr_at h' q x.
Proof. intros E (cells & rest & N & X). exists cells, rest. split; [congruence|exact X]. Qed.

Lemma cstr_block h q x : cstr_at h q x -> p_block q < length h.
Proof. intros (cells & rest & N & X). apply nth_error_Some. congruence. Qed.

Lemma puts_ok vs l B : nth_error vs OP_files = Some (Adr (Some l)) -> (N.of_nat B + 1 < 2 ^ 64)%N -> forall ds names, Forall2 (cstr_at (s_heap s1)) ds names -> Forall (fun n => length n <= B) names ->
  forall files max own s, listing vs l files max own s -> (Z.of_nat (length files + length names + 16) <= int_max)%Z ->
  ends (fun h n => heap_size h + N.to_nat n <= heap_size (s_heap s) + length names * (8 * (length files + length names + 16) + (B + 1)))
    (fun (_ : unit) s' => exists max' own', listing vs l (files ++ names) max' own' s' /\
       heap_size (s_heap s') <= heap_size (s_heap s) + length names * (8 * (length files + length names + 16) + (B + 1)))
    (c_put_files p ds s).
Proof.
  intros V HB ds names F. induction F as [|d n ds names C F IH]; intros Bn files max own s L Le; cbn [c_put_files length] in *.
  { constructor. exists max, own. rewrite app_nil_r. split; [exact L|lia]. }
  pose proof L as (CP & T & M & Ow & Len & Same). inversion Bn as [|? ? Bn1 Bn2]; subst.
  step (ptr_at_ok s p vs OP_files _ CP V). pose proof (cstr_block _ _ _ C) as Db.
  assert (Rm : roomier files max <= length files + 16) by (unfold roomier; destruct (Nat.eqb_spec (length files) max); lia).
  eapply ends_bind.
  { eapply ends_weaken; [apply (list_put s l files 0 own max d n T)|intros h k (_ & X); cbn beta|intros a s' X; exact X].
    - apply (cstr_nth (s_heap s1)); [now apply Same|exact C].
    - intros I. apply Ow in I. lia.
    - unfold MemSpec.fits, strlen. lia.
    - lia.
    - nia. }
  intros [] s2 (own' & T2 & Mv & _ & Sz). destruct Mv as (Mv & Mo & Ml & _).
  assert (L2 : listing vs l (files ++ [n]) (roomier files max) own' s2).
  { assert (Hp : same_at s s2 (p_block p)) by (apply Mv; [lia|intros I; apply Ow in I; lia]). unfold listing. splits; auto.
    - destruct Hp as (H1 & H2). destruct CP as (O & F2 & X). split; [exact O|]. rewrite H1, H2. auto.
    - rewrite app_length. lia.
    - intros b I. apply Mo in I as [I|I]; [auto|lia].
    - lia.
    - intros b Lb. destruct (Mv b ltac:(lia) ltac:(intros I; apply Ow in I; lia)) as (H1 & H2). destruct (Same b Lb) as (H3 & H4). split; [congruence|]. intros Nb. rewrite H2. auto. }
  eapply ends_weaken; [apply (IH Bn2 _ _ _ _ L2); rewrite app_length; cbn [length]; lia| |].
  - intros h k X. rewrite app_length in X. cbn [length] in X. nia.
  - intros [] s' (max' & own2 & L' & X). exists max', own2. rewrite <- app_assoc in L'. split; [exact L'|]. rewrite app_length in X. cbn [length] in X. nia.
Qed.

End files.

(** ** The whole *)

Lemma Forall2_in_l {A B} (P : A -> B -> Prop) l l' x : Forall2 P l l' -> In x (combine l l') -> P (fst x) (snd x).
Proof. induction 1; cbn; [easy|]. intros [<-|I]; auto. Qed.

Lemma written_in a argv : In a argv -> length a < written argv.
Proof. induction argv as [|b argv IH]; [easy|]. change (written (b :: argv)) with (S (length b) + written argv). intros [->|I]; [lia|]. apply IH in I. lia. Qed.

Lemma written_length argv : length argv <= written argv.
Proof. induction argv as [|b argv IH]; [easy|]. change (written (b :: argv)) with (S (length b) + written argv). cbn [length]. lia. Qed.

Lemma written_tl argv : written (tl argv) <= written argv.
Proof. destruct argv as [|a argv]; [easy|]. change (written (a :: argv)) with (S (length a) + written argv). cbn [tl]. lia. Qed.

Theorem options_in_memory {al : allocator} pf getenv pkg argv args detox_sequence s :
  Forall2 (cstr_at (s_heap s)) args argv -> text_in (s_heap s) detox_sequence (getenv (bs "DETOX_SEQUENCE")) -> modest argv ->
  follows (within s (options_room argv)) (fun _ _ => False) (fun o p s' => gives_options s argv o p s')
    (parse_options_says pf getenv pkg argv)
    (c_parse_options_getopt pkg (match getenv (bs "POSIXLY_CORRECT") with Some _ => true | None => false end) detox_sequence args s).
Proof.
  intros FA TD Mo. set (posix := match getenv (bs "POSIXLY_CORRECT") with Some _ => true | None => false end).
  unfold c_parse_options_getopt, parse_options_says. fold posix. set (w := written argv) in *.
  assert (Wb : (N.of_nat w + 1 < 2 ^ 64)%N). { unfold modest in Mo. fold w in Mo. change int_max with 2147483647%Z in Mo. change (2 ^ 64)%N with 18446744073709551616%N. lia. }
  unfold modest in Mo. fold w in Mo.
  assert (Rq : options_room argv = 224 + (10 * (w * w) + 320 * w)) by (unfold options_room; fold w; lia).
  unfold c_options_init. rewrite wbind_assoc. eapply follows_ends; [apply (new_ok s sizeof_options_t OP_members)| |].
  { intros h n (-> & ->). unfold within. rewrite Rq. change (N.to_nat sizeof_options_t) with 72. lia. }
  intros p s1 (-> & -> & _). set (p := mkPtr (length (s_heap s)) 0).
  assert (C0 := given_content s sizeof_options_t OP_members ltac:(apply Nat.leb_le; reflexivity)). fold p in C0.
  assert (X0 : extends s (given s sizeof_options_t OP_members)).
  { split; [eexists; reflexivity|]. intros b L. cbn [given s_words]. rewrite update_other by lia. reflexivity. }
  assert (H0 : heap_size (s_heap (given s sizeof_options_t OP_members)) = heap_size (s_heap s) + 72).
  { cbn [given s_heap]. rewrite size_app, size_one, repeat_length. reflexivity. }
  set (s1 := given s sizeof_options_t OP_members) in *.
  rewrite wbind_assoc. step (clear_ok s1 p _ 12 C0 (le_n _) : clear p OP_members s1 = _). rewrite wbind_ret.
  set (o0 := mkOptions pf false false false false false false 0 None None None None None).
  assert (C1 : content (cleared s1 p 12) p (option_values o0 None None None None None)).
  { apply (cleared_content s1 p (repeat Any 12)); [exact C0|reflexivity|]. repeat (apply Forall_cons; [first [now left|now right]|]). constructor. }
  assert (X1 : extends s (cleared s1 p 12)).
  { destruct X0 as (M & W). split; [exact M|]. intros b L. cbn [cleared s_words]. rewrite update_other by (cbn; lia). now apply W. }
  assert (H1 : heap_size (s_heap (cleared s1 p 12)) = heap_size (s_heap s) + 72) by exact H0.
  set (s2 := cleared s1 p 12) in *. clearbody s2. clear C0 X0 H0 s1.
  set (inline := str_eqb (basename (hd_error argv)) (bs "inline-detox")).
  set (o1 := mkOptions pf false false false false false false 0 None None (getenv (bs "DETOX_SEQUENCE")) None None).
  set (o2 := mkOptions pf false false inline false false false 0 None None (getenv (bs "DETOX_SEQUENCE")) None None).
  assert (Pp : length (s_heap s) <= p_block p) by (cbn; lia).
  destruct (in_hand_set s p Pp o0 o1 s2 9 (word_of detox_sequence) (Adr detox_sequence) None None detox_sequence None X1 C1 ltac:(lia)) as (E1 & I1 & H2); try reflexivity.
  { destruct detox_sequence; [right; eexists; split; reflexivity|left; split; reflexivity]. }
  { exact (text_extends _ _ _ _ X1 TD). }
  step (E1 : assign p OP_sequence_name (word_of detox_sequence) s2 = _). clear E1 C1 o0. set (s3 := assigned s2 p 9 (word_of detox_sequence)) in *. clearbody s3. rewrite <- H2 in H1. clear s2 X1 H2.
  pose proof I1 as (X1 & _).
  assert (FA' : Forall2 (cstr_at (s_heap s3)) args argv) by (clear - FA X1; induction FA; constructor; auto; now apply (extends_cstr s)).
  step (read_all_ok args argv s3 FA'). rewrite (combine_snd _ _ _ FA). fold inline.
  destruct I1 as (_ & _ & name1 & check1 & C1 & T1 & T1').
  destruct (in_hand_set s p Pp o1 o2 s3 2 (Int (if inline then 1 else 0)) (truth inline) name1 check1 name1 check1 X1 C1 ltac:(lia)) as (E2 & I2 & H2); try reflexivity; auto.
  { now left. }
  step (E2 : assign p OP_is_inline_mode _ s3 = _). clear E2 C1 T1 T1' FA'. set (s4 := assigned s3 p 2 _) in *. clearbody s4. rewrite <- H2 in H1. clear s3 X1 H2 name1 check1.
  destruct I2 as (X2 & _ & name2 & check2 & C2 & T2 & T2').
  destruct (in_hand_set s p Pp o2 (options_start pf getenv (hd_error argv)) s4 1 (Int (if inline then 1 else 0)) (truth inline) name2 check2 name2 check2 X2 C2 ltac:(lia)) as (E3 & I3 & H3); try reflexivity; auto.
  { now left. }
  step (E3 : assign p OP_is_inline_bin _ s4 = _). clear E3 C2 T2 T2'. set (s5 := assigned s4 p 1 _) in *. clearbody s5. rewrite <- H3 in H1. clear s4 X2 H3 name2 check2 o1 o2 inline.
  assert (There : Forall (there_at (s_heap s) w) (combine args argv)).
  { apply Forall_forall. intros x I. split; [exact (Forall2_in_l _ _ _ _ FA I)|]. destruct x as [a b]. apply in_combine_r in I. cbn [snd]. apply written_in in I. fold w in I. lia. }
  assert (Tl : Forall (there_at (s_heap s) w) (tl (combine args argv))) by (destruct There; cbn; auto).
  assert (Etl : map snd (tl (combine args argv)) = tl argv) by (rewrite <- (combine_snd _ _ _ FA) at 2; now destruct (combine args argv)).
  pose proof (getopt_alike (s_heap s) w (program_name argv) posix _ (tl (combine args argv)) [] (le_n _) Tl (Forall_nil _)) as G. cbv zeta in G. rewrite Etl in G. cbn [map] in G.
  assert (Wtl := written_tl argv). fold w in Wtl.
  assert (Ltl : length (tl (combine args argv)) <= w).
  { rewrite <- (map_length snd), Etl. pose proof (written_length (tl argv)). lia. }
  destruct (c_getopt_long (program_name argv) posix (tl (combine args argv)) []) as [codes' files'], (getopt_long_says (program_name argv) letters longopts posix (tl argv) []) as [codes files].
  cbn [fst snd] in G. destruct G as (G1 & G2 & G3 & _ & G5 & G6). cbn [length] in G6.
  assert (Wc : length codes' <= w) by lia. assert (Wf : length files' <= w) by lia. clear G5 G6 Etl Tl There Wtl Ltl.
  eapply follows_bind.
  { eapply follows_weaken; [apply (codes_ok s p Pp w (options_room argv) Wb pkg codes' codes G1 _ s5 I3)| | |].
    - change (o_verbose _) with 0%N. lia.
    - rewrite H1, Rq. assert (length codes' * (w + 1) <= w * (w + 1)) by (apply Nat.mul_le_mono_r; exact Wc). lia.
    - auto.
    - auto.
    - intros o u s' X. exact X. }
  intros o [] s6 (I6 & S6). rewrite H1 in S6. clear I3 H1 G1 codes s5.
  destruct I6 as (X6 & Fo & name & check & C6 & T6 & T6').
  step (int_at_ok s6 p _ 3 _ C6 eq_refl : int_at p OP_list_sequences s6 = _). 
  assert (Szc : length codes' * (w + 1) <= w * w + w) by (assert (length codes' * (w + 1) <= w * (w + 1)) by (apply Nat.mul_le_mono_r; exact Wc); lia).
  destruct (o_list_sequences o) eqn:Els; cbn [Z.eqb negb].
  { eapply follows_done; [reflexivity|]. unfold gives_options. splits.
    - intros b L. exact (extends_at _ _ _ X6 L).
    - exact (extends_length _ _ X6).
    - rewrite Rq. lia.
    - exists [p_block p]. split; [|intros b [<-|[]]; cbn; lia]. exists name, check, None, []. rewrite Fo. splits; auto; try reflexivity. constructor; [easy|constructor]. }
  eapply follows_ends; [apply (list_init s6)| |].
  { intros h n [(-> & ->)|(-> & ->)]; unfold within; rewrite Rq.
    - change (N.to_nat 24) with 24. lia.
    - rewrite size_app. change (heap_size [_]) with 24. change (N.to_nat 128) with 128. lia. }
  intros l s7 (El & T7 & H7 & Sb7).
  pose proof (content_live _ _ _ C6) as Lp.
  assert (C7 : content s7 p (option_values o None None name check None)).
  { destruct C6 as (O & F6 & cells & N6 & L6). split; [exact O|]. rewrite Sb7 by (intros [I|[I|[]]]; lia). split; [exact F6|]. exists cells. split; [|exact L6]. rewrite H7. now apply nth_old. }
  step (assign_ok s7 p _ 11 (Ptr l) C7 ltac:(cbn; lia) : assign p OP_files (Ptr l) s7 = _).
  assert (C8 := assigned_content s7 p _ 11 (Ptr l) (Adr (Some l)) C7 ltac:(right; eexists; split; reflexivity)).
  change (set_nth (option_values o None None name check None) 11 (Adr (Some l))) with (option_values o None None name check (Some l)) in C8.
  assert (L8 : listing s6 p (option_values o None None name check (Some l)) l [] 16 [length (s_heap s6); S (length (s_heap s6))] (assigned s7 p 11 (Ptr l))).
  { unfold listing. splits.
    - exact C8.
    - apply (list_same s7 (assigned s7 p 11 (Ptr l))); [|exact T7]. intros b I. split; [reflexivity|]. cbn [assigned s_words]. apply update_other. intros ->. destruct I as [I|[I|[]]]; lia.
    - cbn. lia.
    - intros b [<-|[<-|[]]]; lia.
    - cbn [assigned s_heap]. rewrite H7, app_length. lia.
    - intros b L. split; [cbn [assigned s_heap]; rewrite H7; now apply nth_error_app1|]. intros Nb. cbn [assigned s_words]. rewrite update_other by exact Nb. apply Sb7. intros [I|[I|[]]]; lia. }
  assert (S8 : heap_size (s_heap (assigned s7 p 11 (Ptr l))) = heap_size (s_heap s6) + 152).
  { cbn [assigned s_heap]. rewrite H7, size_app. reflexivity. }
  set (s8 := assigned s7 p 11 (Ptr l)) in *. clearbody s8. clear C7 T7 H7 Sb7 s7 C8.
  assert (Final : forall fs fl max own s', put_files filelist_init fs = Ok fl -> fs = map snd files' \/ fs = [] -> listing s6 p (option_values o None None name check (Some l)) l fs max own s' ->
            heap_size (s_heap s') <= heap_size (s_heap s) + options_room argv -> gives_options s argv (set_files fl o) p s').
  { intros fs fl max own s' Ef _ (K1 & K2 & K3 & K4 & K5 & K6) Sz. unfold gives_options. pose proof (extends_length _ _ X6). splits.
    - intros b L. destruct (K6 b ltac:(lia)) as (N1 & N2). destruct (extends_at _ _ _ X6 L) as (N3 & N4). split; [congruence|]. rewrite N2 by (cbn; lia). exact N4.
    - lia.
    - exact Sz.
    - exists (p_block p :: own). split; [|intros b [<-|I]; [cbn; lia|apply K4 in I; lia]].
      exists name, check, (Some l), own. destruct (put_files_ok fs) as (fl' & Ef' & _ & It & Cu). rewrite Ef in Ef'. injection Ef' as <-. splits.
      + exact K1.
      + clear - T6 K6. destruct name as [q|], (o_sequence_name o) as [x|] eqn:E; cbn [set_files o_sequence_name]; rewrite E; cbn in T6 |- *; auto. apply (cstr_nth (s_heap s6)); [|exact T6]. apply K6. exact (cstr_block _ _ _ T6).
      + clear - T6' K6. destruct check as [q|], (o_check_config_file o) as [x|] eqn:E; cbn [set_files o_check_config_file]; rewrite E; cbn in T6' |- *; auto. apply (cstr_nth (s_heap s6)); [|exact T6']. apply K6. exact (cstr_block _ _ _ T6').
      + split; [exact (put_files_usable fs filelist_init usable_init fl Ef)|]. exists max. cbn [set_files o_files cursor]. rewrite It, Cu. exact K2.
      + exact Cu.
      + reflexivity.
      + constructor; [intros I; apply K4 in I; lia|]. destruct K2 as (? & ? & _ & _ & _ & _ & ND & _). exact ND. }
  assert (Szf : length files' * (8 * (0 + length files' + 16) + (w + 1)) <= 9 * (w * w) + 129 * w).
  { transitivity (w * (8 * (w + 16) + (w + 1))); [apply Nat.mul_le_mono; lia|lia]. }
  subst files. destruct files' as [|f files']; cbn [map].
  - destruct L8 as (K1 & K2). step (int_at_ok s8 p _ 2 _ K1 eq_refl : int_at p OP_is_inline_mode s8 = _).
    destruct (o_is_inline_mode o) eqn:Ei; cbn [Z.eqb].
    + eapply follows_done; [reflexivity|]. apply (Final [] filelist_init 16 [length (s_heap s6); S (length (s_heap s6))]); [reflexivity|now right|split; assumption|]. rewrite S8, Rq. lia.
    + assert (Eu : c_usage p s8 = done (usage o, s8)).
      { unfold c_usage, usage. step (int_at_ok s8 p _ 1 _ K1 eq_refl : int_at p OP_is_inline_bin s8 = _). now destruct (o_is_inline_bin o). }
      step Eu. destruct (print_out_says (usage o)) as (x & Ex). now apply (said_exit _ _ _ x).
  - set (fs := f :: files') in *. change (snd f :: map snd files') with (map snd fs). change (fst f :: map fst files') with (map fst fs).
    assert (Fd : Forall2 (cstr_at (s_heap s6)) (map fst fs) (map snd fs)).
    { clear - G3 X6. induction G3 as [|x l (T & _) G IH]; constructor; auto. now apply (extends_cstr s). }
    assert (Fb : Forall (fun n => length n <= w) (map snd fs)).
    { clear - G3. induction G3 as [|x l (_ & T) G IH]; constructor; auto. }
    destruct (put_files_ok (map snd fs)) as (fl & Ef & _).
    eapply follows_ends; [apply (puts_ok s6 p Lp (option_values o None None name check (Some l)) l w eq_refl Wb _ _ Fd Fb [] 16 _ s8 L8)| |].
    + rewrite map_length. cbn [length]. cbn [length] in Wf. fold fs in Wf. lia.
    + intros h n X. cbn beta in X. rewrite map_length in X. cbn [length] in X. fold fs in X, Szf. unfold within. rewrite Rq. lia.
    + intros [] s9 (max & own & L9 & S9). rewrite map_length in S9. cbn [length] in S9. fold fs in S9, Szf. cbn [app] in L9.
      rewrite Ef. eapply follows_done; [reflexivity|]. apply (Final (map snd fs) fl max own s9 Ef); [now left|exact L9|]. rewrite Rq. lia.
Qed.

(** With enough memory nothing is refused. *)
Lemma follows_enough {A B} {al : allocator} (R : heap -> N -> Prop) (Q : B -> A -> store_t -> Prop) pure t :
  follows R (fun _ _ => False) Q pure t -> (forall h n, R h n -> refusal_of h n = None) ->
  fst t = fst pure /\
  match snd pure with
  | Ok b => exists a s, snd t = Ok (a, s) /\ Q b a s
  | UB w => snd t = UB w
  | Exit c => snd t = Exit c
  end.
Proof.
  intros F N. destruct F as [said b a s E X|said c E|said w E|said said' h n message E1 E2 E3|h n message t E []]; try (rewrite E; cbn; eauto).
  rewrite (N h n E3) in E2. discriminate.
Qed.

Theorem options_enough {al : allocator} pf getenv pkg argv args detox_sequence s :
  Forall2 (cstr_at (s_heap s)) args argv -> text_in (s_heap s) detox_sequence (getenv (bs "DETOX_SEQUENCE")) -> modest argv ->
  (forall h n, heap_size h + N.to_nat n <= heap_size (s_heap s) + options_room argv -> refusal_of h n = None) ->
  let pure := parse_options_says pf getenv pkg argv in
  let t := c_parse_options_getopt pkg (match getenv (bs "POSIXLY_CORRECT") with Some _ => true | None => false end) detox_sequence args s in
  fst t = fst pure /\
  match snd pure with
  | Ok o => exists p s', snd t = Ok (p, s') /\ gives_options s argv o p s'
  | UB w => snd t = UB w
  | Exit c => snd t = Exit c
  end.
Proof. intros F T M N. apply (follows_enough (within s (options_room argv))); [now apply options_in_memory|exact N]. Qed.
