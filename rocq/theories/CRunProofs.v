(** * Linked filters in memory do what filters do *)

From Verif Require Import Base BaseFacts Stdio Table CleanString CleanUtf8 Filter Prog Warnings Mem MemSpec MemFacts CFilters CFiltersProofs
  Words WordsSpec WordsFacts CTable CTableProofs CTableProofs2 FilesSpec CConfig LinkedSpec CConfigProofs CLoadSpec CReview CReviewSpec CReviewProofs CRun CRunSpec.

Local Open Scope nat_scope.

Lemma store_eta s : mkStore (s_heap s) (s_words s) = s.
Proof. now destruct s. Qed.

(** ** Side by side *)

Definition lockstep {A} (Q : A -> store_t -> Prop) (w : talk (A * store_t)) (m : talk (A * heap)) : Prop :=
  fst w = fst m /\
  match snd w, snd m with
  | Ok (a, s), Ok (b, h) => a = b /\ s_heap s = h /\ Q a s
  | UB u, UB v => u = v
  | Exit c, Exit d => c = d
  | _, _ => False
  end.

Lemma lockstep_bind {A B} (Q' : A -> store_t -> Prop) (Q : B -> store_t -> Prop) (m : wmem A) (n : mem A) k j s h :
  h = s_heap s -> lockstep Q' (m s) (n h) ->
  (forall said a s1, n h = (said, Ok (a, s_heap s1)) -> Q' a s1 -> lockstep Q (k a s1) (j a (s_heap s1))) ->
  lockstep Q (wbind m k s) (mbind n j h).
Proof.
  intros -> (E & S) K. unfold wbind, mbind. destruct (m s) as [o [[a s1]|u|c]], (n (s_heap s)) as [o' [[b h]|v|d]]; cbn [fst snd] in *; try contradiction; subst.
  - destruct S as (<- & <- & H). destruct (K o' a s1 eq_refl H) as (E1 & E2). cbn [tbind].
    destruct (k a s1) as [x r], (j a (s_heap s1)) as [x' r']. cbn [fst snd] in *. subst x'. now split.
  - now split.
  - now split.
Qed.

Lemma lockstep_bytes {A} (Q : A -> store_t -> Prop) (m : mem A) s h : h = s_heap s ->
  (forall said a h, m (s_heap s) = (said, Ok (a, h)) -> Q a (mkStore h (s_words s))) -> lockstep Q (bytes m s) (m h).
Proof.
  intros -> H. unfold bytes. destruct (m (s_heap s)) as [o [[a h]|u|c]]; cbn; split; cbn; rewrite ?app_nil_r; auto.
  splits; auto. now apply (H o).
Qed.

Lemma lockstep_ret {A} (Q : A -> store_t -> Prop) a s h : h = s_heap s -> Q a s -> lockstep Q (wret a s) (mret a h).
Proof. intros -> H. split; cbn; auto. Qed.

Lemma lockstep_weaken {A} (Q Q' : A -> store_t -> Prop) w m : lockstep Q w m -> (forall a s, Q a s -> Q' a s) -> lockstep Q' w m.
Proof.
  intros (E & S) K. split; [exact E|]. destruct w as [o [[a s]|u|c]], m as [o' [[b h]|v|d]]; cbn in *; auto.
  destruct S as (<- & <- & H). auto.
Qed.

Lemma lockstep_rounds {V A} (J : V -> store_t -> Prop) (Q : A -> store_t -> Prop) body body' fuel : forall v s,
  (forall v s, J v s -> lockstep (fun x s' => match x with inl v' => J v' s' | inr a => Q a s' end) (body v s) (body' v (s_heap s))) ->
  J v s -> lockstep Q (wrounds fuel body v s) (rounds fuel body' v (s_heap s)).
Proof.
  induction fuel as [|fuel IH]; intros v s B H; [now split|]. cbn [wrounds rounds].
  eapply lockstep_bind; [reflexivity|now apply B|]. intros said [v'|a] s1 _ H1; [now apply IH|now apply lockstep_ret].
Qed.

Lemma lockstep_while {V A} (J : V -> store_t -> Prop) (Q : A -> store_t -> Prop) body body' v s h : h = s_heap s ->
  (forall v s, J v s -> lockstep (fun x s' => match x with inl v' => J v' s' | inr a => Q a s' end) (body v s) (body' v (s_heap s))) ->
  J v s -> lockstep Q (wwhile body v s) (while body' v h).
Proof. intros -> B H. unfold wwhile, while. now apply (lockstep_rounds J). Qed.

(** A step that only the first one makes *)
Lemma lockstep_step {A B} (Q : B -> store_t -> Prop) (m : wmem A) k s a s1 h (n : heap -> talk (B * heap)) : m s = done (a, s1) ->
  lockstep Q (k a s1) (n h) -> lockstep Q (wbind m k s) (n h).
Proof. intros E S. now rewrite (wbind_done _ _ _ _ _ E). Qed.

Lemma lockstep_saying {B} (Q : B -> store_t -> Prop) (t : talk unit) k j s h : h = s_heap s ->
  lockstep Q (k tt s) (j tt h) -> lockstep Q (wbind (saying t) k s) (mbind (outside t) j h).
Proof.
  intros -> S. eapply (lockstep_bind (fun _ s1 => s1 = s)); [reflexivity| |].
  - unfold saying, outside. destruct t as [o [[]|u|c]]; cbn; split; cbn; auto.
  - intros said [] s1 _ ->. exact S.
Qed.

(** ** Blocks that stay as they are *)

Definition kept (n : nat) (h h' : heap) : Prop := length h <= length h' /\ forall b, b < n -> nth_error h' b = nth_error h b.

Lemma kept_refl n h : kept n h h.
Proof. now split. Qed.

Lemma kept_trans n h1 h2 h3 : kept n h1 h2 -> kept n h2 h3 -> kept n h1 h3.
Proof. intros (L1 & K1) (L2 & K2). split; [lia|]. intros b I. now rewrite K2, K1. Qed.

Lemma kept_cstr n h h' p x : kept n h h' -> p_block p < n -> cstr_at h p x -> cstr_at h' p x.
Proof. intros (_ & K) L. apply cstr_same. now apply K. Qed.

Lemma load_kept p h said c h' : load p h = (said, Ok (c, h')) -> h' = h.
Proof.
  unfold load. destruct (nth_error h (p_block p)) as [[cells|]|]; try discriminate. destruct (nth_error cells (p_off p)) as [[b|]|]; try discriminate.
  now intros [= _ _ <-].
Qed.

Lemma store_kept n p c h said u h' : n <= p_block p -> store p c h = (said, Ok (u, h')) -> kept n h h'.
Proof.
  intros L. unfold store. destruct (nth_error h (p_block p)) as [[cells|]|]; try discriminate. destruct (p_off p <? length cells); try discriminate.
  intros [= _ _ <-]. split; [now rewrite set_length|]. intros b I. apply set_other. lia.
Qed.

Lemma mbind_inv {A B} (m : mem A) (k : A -> mem B) h said b h' : mbind m k h = (said, Ok (b, h')) ->
  exists said1 a h1 said2, m h = (said1, Ok (a, h1)) /\ k a h1 = (said2, Ok (b, h')).
Proof.
  unfold mbind. destruct (m h) as [o [[a h1]|u|c]]; cbn; try discriminate. destruct (k a h1) as [o' r] eqn:E. intros [= <- ->]. eauto 8.
Qed.

Lemma write_kept n s : forall p h said q h', n <= p_block p -> c_write p s h = (said, Ok (q, h')) -> q = plus p (length s) /\ kept n h h'.
Proof.
  induction s as [|c s IH]; intros p h said q h' L; cbn [c_write].
  - intros [= _ <- <-]. split; [unfold plus; destruct p; cbn; f_equal; lia|apply kept_refl].
  - intros E. apply mbind_inv in E as (s1 & u & h1 & s2 & E1 & E2). apply IH in E2 as (-> & K); [|exact L].
    split; [unfold plus; cbn; f_equal; lia|]. eapply kept_trans; [|exact K]. eapply store_kept; eauto.
Qed.

Lemma copy_kept n k : forall p q h said q' h', n <= p_block q -> CFilters.c_copy k p q h = (said, Ok (q', h')) -> q' = plus q k /\ kept n h h'.
Proof.
  induction k as [|k IH]; intros p q h said q' h' L; cbn [CFilters.c_copy].
  - intros [= _ <- <-]. split; [unfold plus; destruct q; cbn; f_equal; lia|apply kept_refl].
  - intros E. apply mbind_inv in E as (s1 & c & h1 & s2 & E1 & E2). apply load_kept in E1 as ->.
    apply mbind_inv in E2 as (s3 & u & h2 & s4 & E3 & E4). apply IH in E4 as (-> & K); [|exact L].
    split; [unfold plus; cbn; f_equal; lia|]. eapply kept_trans; [|exact K]. eapply store_kept; eauto.
Qed.

(** The text from the table, byte after byte *)
Lemma put_string_write h p q x : cstr_at h p x -> p_block p <> p_block q -> c_put_string p q h = c_write q x h.
Proof.
  intros C D. unfold c_put_string, while. assert (L : length x < S (heap_size h)) by (apply cstr_size in C; lia). revert L. generalize (S (heap_size h)) as fuel.
  revert h p q C D. induction x as [|c x IH]; intros h p q C D [|fuel] L; cbn [length] in L; try lia; rewrite rounds_S, mbind_assoc; cbn [c_write].
  - rewrite (mbind_done _ _ _ _ _ (cstr_nil _ _ C)), beq_refl, mbind_ret. reflexivity.
  - destruct (cstr_cons _ _ _ _ C) as (X & C' & Nc). rewrite (mbind_done _ _ _ _ _ X). destruct (beq c NUL) eqn:E; [now apply beq_eq in E|].
    rewrite mbind_assoc. unfold mbind at 1 3. apply tbind_ext. intros [u h'] S. rewrite mbind_ret. apply IH; auto; [|lia].
    assert (Q : store q c h = (fst (store q c h), Ok (u, h'))) by (rewrite <- S; apply surjective_pairing).
    revert Q. unfold store. destruct (nth_error h (p_block q)) as [[cells|]|]; try discriminate. destruct (p_off q <? length cells); try discriminate.
    intros [= _ <-]. eapply cstr_same; [|exact C']. apply set_other. cbn. congruence.
Qed.

(** ** Lookups *)

Lemma seldom_more k k' c : k <= k' -> seldom k c -> seldom k' c.
Proof. unfold seldom. lia. Qed.

Lemma seldom_counted k c t key : seldom k c -> seldom (S k) (counted t key c).
Proof.
  unfold seldom, counted. intros (A & B & C). destruct (key =? 0)%N; [lia|].
  destruct (t_hash t && _)%bool; [cbn; lia|]. destruct (existsb _ _); cbn; lia.
Qed.

Lemma seldom_sound k c : seldom k c -> (Z.of_nat k < int_max)%Z -> sound c.
Proof. unfold seldom, sound. lia. Qed.

Lemma size_of_nat n : (Z.of_nat n <= int_max)%Z -> size_of (Z.of_nat n) = N.of_nat n.
Proof. unfold size_of, int_max. intros L. rewrite Z.mod_small by lia. lia. Qed.

Section lookups.

(** The table at [p] when [name] is to be looked up, and [rest] is left of it *)
Definition looked_up (s0 : store_t) (p : ptr) (t : table) (k n : nat) (own : list nat) (name : str) (rest : str) (s : store_t) : Prop :=
  kept n (s_heap s0) (s_heap s) /\ same_but [p_block p] s0 s /\ length rest <= length name /\
  exists c, table_at s p t c own /\ seldom (k + (length name - length rest)) c.

Context (s0 : store_t) (p : ptr) (t : table) (k n : nat) (own : list nat) (name : str).
Hypothesis Few : (Z.of_nat (k + length name) <= int_max)%Z.
Hypothesis Old : forall b, In b own -> b < n.
Local Notation consulted := (looked_up s0 p t k n own name).

Lemma consulted_less rest rest' s : consulted rest s -> length rest' <= length rest -> consulted rest' s.
Proof. intros (K & S & L & c & T & M) L'. unfold looked_up. splits; auto; [lia|]. exists c. split; [exact T|]. eapply seldom_more; [|exact M]. lia. Qed.

Lemma consulted_kept rest s h : consulted rest s -> kept n (s_heap s) h -> consulted rest (mkStore h (s_words s)).
Proof.
  intros (K & S & L & c & T & M) K'. unfold looked_up. splits; auto; [eapply kept_trans; eauto|]. exists c. split; [|exact M].
  eapply table_at_same; [|exact T]. intros b I. cbn. split; [|reflexivity]. apply K'. auto.
Qed.

Lemma own_here s c : table_at s p t c own -> p_block p < n.
Proof. intros (rp & ds & df & CP & CR & F & D & Eo & ND & IR). apply Old. rewrite Eo. now left. Qed.

(** One lookup for at least one byte *)
Lemma get_consulted rest rest' s key : consulted rest s -> length rest' < length rest ->
  exists q s', c_table_get (Some p) key s = done (q, s') /\ text_in (s_heap s') q (table_get t key) /\ (forall q', q = Some q' -> p_block q' < n) /\
    consulted rest' s' /\ s_heap s' = s_heap s.
Proof.
  intros (K & S & L & c & T & M) Lt. assert (So : sound c) by (eapply seldom_sound; [exact M|lia]).
  destruct (get_in_memory s p t c own key T So) as (q & s' & E & St & Iq & T' & Hh & Sb).
  exists q, s'. splits; auto.
  - destruct q, (table_get t key); cbn in *; tauto.
  - split; [now rewrite Hh|]. splits; [|lia|].
    + intros b Nb. rewrite (Sb b Nb). now apply S.
    + exists (counted t key c). split; [exact T'|]. eapply seldom_more; [|apply seldom_counted; exact M]. lia.
Qed.

Lemma default_consulted rest s : consulted rest s ->
  exists q, ptr_at p T_default_translation s = done (q, s) /\ text_in (s_heap s) q (t_default t) /\ (forall q', q = Some q' -> p_block q' < n).
Proof.
  intros (K & S & L & c & (rp & ds & df & CP & CR & F & D & Eo & ND & IR) & M). exists df. splits.
  - now apply (ptr_at_ok _ _ _ _ _ CP).
  - destruct df, (t_default t); cbn in *; tauto.
  - intros q' ->. apply Old. rewrite Eo. right. right. now left.
Qed.

Lemma translation_consulted rest rest' s key : consulted rest s -> length rest' < length rest ->
  exists q s', w_translation p key s = done (q, s') /\
    text_in (s_heap s') q (match table_get t key with Some r => Some r | None => t_default t end) /\ (forall q', q = Some q' -> p_block q' < n) /\
    consulted rest' s' /\ s_heap s' = s_heap s.
Proof.
  intros C L. destruct (get_consulted rest rest' s key C L) as (q & s' & E & St & Bq & C' & H). unfold w_translation. rewrite (wbind_done _ _ _ _ _ E).
  destruct q as [q|], (table_get t key) as [r|]; cbn in St; try contradiction.
  - exists (Some q), s'. splits; auto.
  - destruct (default_consulted rest' s' C') as (d & Ed & Sd & Bd). rewrite Ed. exists d, s'. splits; auto.
Qed.

End lookups.

(** ** The three filters with a table *)

Section table_filters.

Context {al : allocator}.
Context (s : store_t) (p : ptr) (t : table) (c0 : counters) (k : nat) (own : list nat) (f : ptr) (name : str).
Hypothesis T : table_at s p t c0 own.
Hypothesis M : seldom k c0.
Hypothesis C : cstr_at (s_heap s) f name.
Hypothesis Few : (Z.of_nat (k + length name) <= int_max)%Z.

Let n := length (s_heap s).
Notation consulted := (looked_up s p t k n own name).

Lemma own_old b : In b own -> b < n.
Proof.
  destruct T as (rp & ds & df & CP & CR & F & D & Eo & ND & IR). intros I. rewrite Eo in I. destruct I as [<-|[<-|I]].
  - exact (content_live _ _ _ CP).
  - exact (content_live _ _ _ CR).
  - apply in_block_list in I as (q & I & Eb). subst b. destruct I as [->|I].
    + destruct (t_default t); cbn in D; [|easy]. destruct D as (_ & cells & rest & E & _). apply nth_error_Some. congruence.
    + apply In_nth_error in I as (i & I). destruct (Forall2_nth_l _ _ _ _ _ F I) as (r & _ & D'). destruct (r_data r); cbn in D'; [|easy].
      destruct D' as (_ & cells & rest & E & _). apply nth_error_Some. congruence.
Qed.

Definition round (v : ptr * ptr) (s1 : store_t) : Prop :=
  exists rest, cstr_at (s_heap s1) (fst v) rest /\ p_block (fst v) < n /\ p_block (snd v) = n /\ consulted rest s1.

Definition rounded (x : ptr * ptr + ptr) (s1 : store_t) : Prop :=
  match x with inl v => round v s1 | inr o => p_block o = n /\ consulted [] s1 end.

Lemma loop_step body body' :
  (forall v s1, round v s1 -> lockstep rounded (body v s1) (body' v (s_heap s1))) ->
  lockstep (fun _ => consulted []) ((let$ output := w_output f p in
      let$ output_walk := wwhile body (f, output) in
      let$ _ := bytes (store output_walk NUL) in
      wret (Some output)) s)
   ((let* len := c_strlen f in
     let* output := malloc (size_t (size_t (len * N.of_nat (t_maxdata t)) + 1)) in
     let* output_walk := while body' (f, output) in
     let* _ := store output_walk NUL in
     mret (Some output)) (s_heap s)).
Proof.
  intros Body. rewrite (mbind_done _ _ _ _ _ (strlen_ok _ _ _ C)). unfold w_output. rewrite wbind_assoc.
  rewrite (wbind_done _ _ _ _ _ (bytes_done _ _ _ _ (strlen_ok _ _ _ C))). rewrite wbind_assoc.
  rewrite store_eta.
  assert (Md : int_at p T_max_data_length s = done (Z.of_nat (t_maxdata t), s)).
  { destruct T as (rp & ds & df & CP & _). now apply (int_at_ok _ _ _ _ _ CP). }
  rewrite (wbind_done _ _ _ _ _ Md).
  assert (Mx : size_of (Z.of_nat (t_maxdata t)) = N.of_nat (t_maxdata t)).
  { apply size_of_nat. destruct T as (rp & ds & df & _ & _ & _ & _ & _ & _ & IR). apply IR. }
  rewrite Mx.
  eapply (lockstep_bind (fun o s1 => p_block o = n /\ round (f, o) s1)); [reflexivity| |].
  - apply lockstep_bytes; [reflexivity|]. intros said a h. unfold malloc. destruct (refusal_of _ _); [discriminate|]. intros [= _ <- <-]. split; [reflexivity|].
    exists name. cbn [fst snd p_block s_heap s_words]. assert (K : kept n (s_heap s) (s_heap s ++ [Some (repeat None (N.to_nat (size_t (size_t (strlen name * N.of_nat (t_maxdata t)) + 1))))])).
    { split; [rewrite app_length; lia|]. intros b I. now rewrite nth_error_app1. }
    assert (L : p_block f < n). { destruct C as (cells & rest & E & _). apply nth_error_Some. unfold n. congruence. }
    splits; [eapply kept_cstr; eauto|exact L|reflexivity|]. apply (consulted_kept s p t k n own name own_old name s); [|exact K].
    unfold looked_up. splits; [apply kept_refl|now intros b _|lia|]. exists c0. split; [exact T|]. eapply seldom_more; [|exact M]. lia.
  - intros said output s1 _ (Bo & R). eapply (lockstep_bind (fun o s2 => p_block o = n /\ consulted [] s2)); [reflexivity| |].
    + apply (lockstep_while round); [reflexivity| |exact R]. intros v s2 H. exact (Body v s2 H).
    + intros said' o s2 _ (Bo2 & R2). eapply (lockstep_bind (fun _ => consulted [])); [reflexivity| |].
      * apply lockstep_bytes; [reflexivity|]. intros said2 a h E. apply (consulted_kept s p t k n own name own_old [] s2); [exact R2|].
        eapply store_kept; [|exact E]. lia.
      * intros said2 [] s3 _ R3. now apply lockstep_ret.
Qed.

(** How a round ends *)
Lemma next_store i o rest s1 b : cstr_at (s_heap s1) i rest -> p_block i < n -> p_block o = n -> consulted rest s1 ->
  lockstep rounded ((let$ _ := bytes (store o b) in wret (inl (i, plus o 1))) s1) ((let* _ := store o b in mret (inl (i, plus o 1))) (s_heap s1)).
Proof.
  intros Ci Bi Bo R. eapply (lockstep_bind (fun _ => round (i, plus o 1))); [reflexivity| |].
  - apply lockstep_bytes; [reflexivity|]. intros said a h E. apply (store_kept n) in E; [|lia]. exists rest. cbn [fst snd].
    splits; auto; [eapply kept_cstr; eauto|]. apply (consulted_kept s p t k n own name own_old rest s1); auto.
  - intros said [] s2 _ R2. now apply lockstep_ret.
Qed.

Lemma next_string i o q x rest s1 : cstr_at (s_heap s1) q x -> p_block q < n -> cstr_at (s_heap s1) i rest -> p_block i < n -> p_block o = n -> consulted rest s1 ->
  lockstep rounded ((let$ o := bytes (c_put_string q o) in wret (inl (i, o))) s1) ((let* o := c_write o x in mret (inl (i, o))) (s_heap s1)).
Proof.
  intros Cq Bq Ci Bi Bo R. assert (E : c_put_string q o (s_heap s1) = c_write o x (s_heap s1)) by (apply put_string_write; [exact Cq|lia]).
  eapply (lockstep_bind (fun o => round (i, o))); [reflexivity| |].
  - rewrite <- E. apply lockstep_bytes; [reflexivity|]. intros said a h. rewrite E. intros W. apply (write_kept n) in W as (-> & K); [|lia]. exists rest. cbn [fst snd].
    splits; auto; [eapply kept_cstr; eauto|]. apply (consulted_kept s p t k n own name own_old rest s1); auto.
  - intros said a s2 _ R2. now apply lockstep_ret.
Qed.

Lemma next_copy i j o w rest s1 : cstr_at (s_heap s1) i rest -> p_block i < n -> p_block o = n -> consulted rest s1 ->
  lockstep rounded ((let$ o := bytes (CFilters.c_copy w j o) in wret (inl (i, o))) s1) ((let* o := CFilters.c_copy w j o in mret (inl (i, o))) (s_heap s1)).
Proof.
  intros Ci Bi Bo R. eapply (lockstep_bind (fun o => round (i, o))); [reflexivity| |].
  - apply lockstep_bytes; [reflexivity|]. intros said a h W. apply (copy_kept n) in W as (-> & K); [|lia]. exists rest. cbn [fst snd].
    splits; auto; [eapply kept_cstr; eauto|]. apply (consulted_kept s p t k n own name own_old rest s1); auto.
  - intros said a s2 _ R2. now apply lockstep_ret.
Qed.

(** A byte, or the end *)
Lemma first_load v s1 (kw : byte -> wmem (ptr * ptr + ptr)) (km : byte -> mem (ptr * ptr + ptr)) : round v s1 ->
  (forall c rest, cstr_at (s_heap s1) (fst v) (c :: rest) -> c <> NUL -> cstr_at (s_heap s1) (plus (fst v) 1) rest -> p_block (fst v) < n -> p_block (snd v) = n -> consulted (c :: rest) s1 ->
     lockstep rounded (kw c s1) (km c (s_heap s1))) ->
  lockstep rounded ((let$ c := bytes (load (fst v)) in if beq c NUL then wret (inr (snd v)) else kw c) s1)
    ((let* c := load (fst v) in if beq c NUL then mret (inr (snd v)) else km c) (s_heap s1)).
Proof.
  intros (rest & Ci & Bi & Bo & R) K. destruct rest as [|c rest].
  - pose proof (cstr_nil _ _ Ci) as E. rewrite (mbind_done _ _ _ _ _ E), (wbind_done _ _ _ _ _ (bytes_done _ _ _ _ E)), beq_refl.
    rewrite store_eta. apply lockstep_ret; [reflexivity|]. split; [exact Bo|exact R].
  - destruct (cstr_cons _ _ _ _ Ci) as (E & C1 & Nc). rewrite (mbind_done _ _ _ _ _ E), (wbind_done _ _ _ _ _ (bytes_done _ _ _ _ E)).
    destruct (beq c NUL) eqn:B; [now apply beq_eq in B|]. specialize (K c rest Ci Nc C1 Bi Bo R). rewrite store_eta. exact K.
Qed.

Lemma translated v c rest s1 key : cstr_at (s_heap s1) (plus (fst v) 1) rest -> p_block (fst v) < n -> p_block (snd v) = n -> consulted (c :: rest) s1 ->
  lockstep rounded
    ((let$ replace_walk := w_translation p key in
      match replace_walk with
      | None => let$ _ := bytes (store (snd v) c) in wret (inl (plus (fst v) 1, plus (snd v) 1))
      | Some replace_walk =>
        let$ output_walk := bytes (c_put_string replace_walk (snd v)) in wret (inl (plus (fst v) 1, output_walk))
      end) s1)
    (match match table_get t key with Some r => Some r | None => t_default t end with
     | None => let* _ := store (snd v) c in mret (inl (plus (fst v) 1, plus (snd v) 1))
     | Some replace => let* output_walk := c_write (snd v) replace in mret (inl (plus (fst v) 1, output_walk))
     end (s_heap s1)).
Proof.
  intros Ci Bi Bo R. destruct (translation_consulted s p t k n own name Few own_old (c :: rest) rest s1 key R) as (q & s2 & E & Tx & Bq & R2 & H); [cbn; lia|].
  rewrite (wbind_done _ _ _ _ _ E). rewrite <- H in *. destruct q as [q|], (match table_get t key with Some r => Some r | None => t_default t end) as [x|]; cbn in Tx; try contradiction.
  - apply (next_string _ _ _ x rest); auto.
  - apply (next_store _ _ rest); auto.
Qed.

Lemma iso8859_1_step :
  lockstep (fun _ => consulted []) (w_clean_iso8859_1 (Some f) (Some p) s) (c_clean_iso8859_1 (Some f) (Some t) (s_heap s)).
Proof.
  unfold w_clean_iso8859_1, c_clean_iso8859_1. apply loop_step. intros [i o] s1 R. apply (first_load (i, o) s1); [exact R|]. cbn [fst snd].
  intros c rest Ci Nc C1 Bi Bo R1. destruct (N.land (bN c) 0x80 =? 0)%N.
  - apply (next_store _ _ rest); auto. eapply consulted_less; [exact Few|exact R1|]. cbn. lia.
  - now apply (translated (i, o) c rest).
Qed.

Lemma safe_step pf :
  lockstep (fun _ => consulted []) (w_clean_safe pf (Some f) (Some p) s) (c_clean_safe (p_schar pf) (Some f) (Some t) (s_heap s)).
Proof.
  unfold w_clean_safe, c_clean_safe. apply loop_step. intros [i o] s1 R. apply (first_load (i, o) s1); [exact R|]. cbn [fst snd].
  intros c rest Ci Nc C1 Bi Bo R1. now apply (translated (i, o) c rest).
Qed.

(** *** clean_utf_8 *)

Context (literal : str -> ptr).
Hypothesis Lits : literals_in (s_heap s) literal run_literals.

Lemma literal_kept x rest s1 : In x run_literals -> consulted rest s1 -> cstr_at (s_heap s1) (literal x) x /\ p_block (literal x) < n.
Proof.
  intros I (K & _). assert (L : p_block (literal x) < n). { destruct (Lits x I) as (cells & r & E & _). apply nth_error_Some. unfold n. congruence. }
  split; [|exact L]. eapply kept_cstr; [exact K|exact L|]. now apply Lits.
Qed.

Lemma put_invalid i o rest s1 : cstr_at (s_heap s1) i rest -> p_block i < n -> p_block o = n -> consulted rest s1 ->
  lockstep rounded ((let$ _ := w_put_invalid literal o in wret (inl (i, plus o 1))) s1)
    ((let* _ := store o invalid_replacement in mret (inl (i, plus o 1))) (s_heap s1)).
Proof.
  intros Ci Bi Bo R. unfold w_put_invalid. rewrite wbind_assoc.
  assert (I : In [invalid_replacement] run_literals) by (right; now left).
  destruct (literal_kept _ rest s1 I R) as (Cl & _). destruct (cstr_cons _ _ _ _ Cl) as (E & _ & _).
  rewrite (wbind_done _ _ _ _ _ (bytes_done _ _ _ _ E)), store_eta. now apply (next_store _ _ rest).
Qed.

Local Ltac tidy := repeat (rewrite wbind_assoc || rewrite wbind_ret).

Lemma replacement_step c rest s1 v (kw : option ptr -> wmem (ptr * ptr + ptr)) (km : option str -> mem (ptr * ptr + ptr)) :
  consulted (c :: rest) s1 ->
  (forall q x s2, text_in (s_heap s2) q x -> (forall q', q = Some q' -> p_block q' < n) -> consulted rest s2 -> s_heap s2 = s_heap s1 ->
     lockstep rounded (kw q s2) (km x (s_heap s2))) ->
  lockstep rounded ((let$ q := w_utf_8_replacement literal p v in kw q) s1)
    ((let* _ := outside (utf_8_value_says t v) in km (utf_8_replacement t v)) (s_heap s1)).
Proof.
  intros R K. destruct (get_consulted s p t k n own name Few own_old (c :: rest) rest s1 v R) as (q & s2 & E & Tx & Bq & R2 & H); [cbn; lia|].
  unfold w_utf_8_replacement. rewrite wbind_assoc, (wbind_done _ _ _ _ _ E). unfold utf_8_value_says, utf_8_replacement. rewrite <- H.
  destruct q as [q|], (table_get t v) as [x|]; cbn in Tx; try contradiction.
  - rewrite mbind_outside, tbind_done. tidy. apply K; auto.
  - tidy. destruct (v =? 0)%N.
    + tidy. apply lockstep_saying; [reflexivity|]. tidy.
      assert (I : In null_replacement run_literals) by now left.
      destruct (literal_kept _ rest s2 I R2) as (Cl & Bl). apply K; auto. now intros q' [= <-].
    + tidy. destruct (UNICODE_MAX_VALUE <? v)%N.
      * tidy. apply lockstep_saying; [reflexivity|]. tidy.
        assert (I : In [invalid_replacement] run_literals) by (right; now left).
        destruct (literal_kept _ rest s2 I R2) as (Cl & Bl). apply K; auto. now intros q' [= <-].
      * rewrite mbind_outside, tbind_done. tidy.
        destruct (default_consulted s p t k n own name own_old rest s2 R2) as (d & Ed & Sd & Bd). rewrite (wbind_done _ _ _ _ _ Ed). apply K; auto.
Qed.

Lemma utf_8_step :
  lockstep (fun _ => consulted []) (w_clean_utf_8 literal (Some f) (Some p) s) (c_clean_utf_8 (Some f) (Some t) (s_heap s)).
Proof.
  unfold w_clean_utf_8, c_clean_utf_8. apply loop_step. intros [i o] s1 R. apply (first_load (i, o) s1); [exact R|]. cbn [fst snd].
  intros c rest Ci Nc C1 Bi Bo R1. assert (R2 : consulted rest s1) by (eapply consulted_less; [exact Few|exact R1|cbn; lia]).
  destruct (get_utf_8_width c) as [w|] eqn:W.
  2:{ apply lockstep_saying; [reflexivity|]. now apply (put_invalid _ _ rest). }
  pose proof (cont_same (w - 1) (unpack_start c w) i rest [] (s_heap s1) C1) as Co.
  destruct (utf_8_cont_loop (w - 1) (unpack_start c w) rest []) as [[[v e] r]|r].
  - destruct Co as (E & Cr & conts & _ & -> & Lc). rewrite (mbind_done _ _ _ _ _ E), (wbind_done _ _ _ _ _ (bytes_done _ _ _ _ E)), store_eta.
    cbv zeta iota. set (i1 := plus (plus i (w - 1)) 1) in *. assert (Bi1 : p_block i1 < n) by exact Bi.
    apply (replacement_step c (conts ++ r) s1 v _
      (fun x => match x with
                | Some replace => let* output_walk := c_write o replace in mret (inl (i1, output_walk))
                | None => let* output_walk := CFilters.c_copy w (mkPtr (p_block i1) (p_off i1 - w)) o in mret (inl (i1, output_walk))
                end)); [exact R1|].
    intros q x s2 Tx Bq R3 H. assert (R4 : consulted r s2) by (eapply consulted_less; [exact Few|exact R3|rewrite app_length; lia]). rewrite <- H in Cr.
    destruct q as [q|], x as [x|]; cbn in Tx; try contradiction.
    + apply (next_string _ _ _ x r); auto.
    + apply (next_copy _ _ _ _ r); auto.
  - destruct Co as (q & E & Cr & Pq & Lr). eapply (lockstep_bind (fun x s2 => x = (None, q) /\ s2 = s1)); [reflexivity| |].
    + apply lockstep_bytes; [reflexivity|]. intros said a h. rewrite E. cbn. intros [= _ <- <-]. split; [reflexivity|apply store_eta].
    + intros said x s2 _ (-> & ->). apply (put_invalid _ _ r); auto; [lia|]. eapply consulted_less; [exact Few|exact R2|lia].
Qed.

End table_filters.
