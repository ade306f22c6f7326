(** * The filters in memory do what the filters on lists do *)

From Verif Require Import Base BaseFacts Stdio Table CleanString CleanUtf8 Filter Prog Warnings Mem MemSpec MemFacts CFilters.

Local Open Scope nat_scope.

Lemma size_t_bound n : (size_t n < 2 ^ 64)%N.
Proof. unfold size_t. now apply N.mod_lt. Qed.

Section proofs.

Context {al : allocator}.
Hypothesis Lim : limited al.

(** ** A loop that fills a block *)

Definition upd (h : heap) (b : nat) (cap : N) (acc : list byte) : heap := set_block h b (Some (filled cap acc)).

Definition built (h : heap) (b : nat) (cap : N) (t : talk (list byte)) (m : talk (ptr * heap)) : Prop :=
  m = tbind t (fun acc => done (mkPtr b (length acc), upd h b cap acc)) /\
  forall acc, snd t = Ok acc -> length acc <= N.to_nat cap.

Lemma built_done h b cap acc : building h b cap acc -> built h b cap (done acc) (done (mkPtr b (length acc), h)).
Proof.
  intros [B L]. split.
  - rewrite tbind_done. unfold upd. now rewrite set_id.
  - now intros acc' [= <-].
Qed.

Lemma built_talk {A} h b cap (t : talk A) k' k :
  (forall a, snd t = Ok a -> built h b cap (k' a) (k a)) -> built h b cap (tbind t k') (tbind t k).
Proof.
  intros H. split.
  - rewrite tbind_assoc. apply tbind_ext. intros a E. apply H, E.
  - intros acc. destruct t as [o [a|w|c]]; cbn; try discriminate. specialize (H a eq_refl). destruct H as [_ H].
    destruct (k' a) as [o' r]. exact (H acc).
Qed.

Lemma built_upd h b cap acc t m : built (upd h b cap acc) b cap t m -> built h b cap t m.
Proof. intros [E L]. split; [|exact L]. rewrite E. apply tbind_ext. intros a _. unfold upd. now rewrite set_set. Qed.

Lemma built_store h b cap acc c k' (k : mem ptr) : building h b cap acc ->
  (forall h', h' = upd h b cap (c :: acc) -> building h' b cap (c :: acc) -> built h' b cap (k' (c :: acc)) (k h')) ->
  built h b cap (tbind (quietly (wr cap acc c)) k') (mbind (store (mkPtr b (length acc)) c) (fun _ => k) h).
Proof.
  intros Bu H. rewrite (store_step h b cap acc c k Bu). apply built_talk. cbn [quietly snd]. intros acc' E.
  destruct (wr_length _ _ _ _ E) as [-> L]. apply (built_upd _ _ _ (c :: acc)). apply H; [reflexivity|].
  now apply (building_set _ _ _ acc).
Qed.

Lemma built_write h b cap acc s k' (k : ptr -> mem ptr) : building h b cap acc ->
  (forall acc' h', h' = upd h b cap acc' -> building h' b cap acc' -> built h' b cap (k' acc') (k (mkPtr b (length acc')) h')) ->
  built h b cap (tbind (quietly (wrs cap acc s)) k') (mbind (c_write (mkPtr b (length acc)) s) k h).
Proof.
  intros Bu H. rewrite (write_step s h b cap acc k Bu). apply built_talk. cbn [quietly snd]. intros acc' E.
  apply (built_upd _ _ _ acc'). apply H; [reflexivity|]. apply (building_set _ _ _ acc); [exact Bu|].
  eapply wrs_length; [exact E|]. apply Bu.
Qed.

Lemma quietly_do {A B} (m : res A) (k : A -> res B) : quietly (do x <- m; k x) = tbind (quietly m) (fun x => quietly (k x)).
Proof. destruct m as [a|w|c]; cbn; try reflexivity. Qed.

Lemma cstr_upd h p s b cap acc : p_block p <> b -> cstr_at h p s -> cstr_at (upd h b cap acc) p s.
Proof. apply cstr_set. Qed.

(** ** What a function leaves behind *)

(** Of the blocks it has allocated one is left, which holds the string it returns. *)
Definition leaves (h : heap) (q : ptr) (r : str) (h' : heap) : Prop :=
  exists i j rest, h' = h ++ repeat None i ++ Some (map Some r ++ Some NUL :: rest) :: repeat None j /\
    q = mkPtr (length h + i) 0 /\ nonul r /\ bounded h'.

Definition agrees (h : heap) (c : talk (option ptr * heap)) (m : talk (option str)) : Prop :=
  fst c = fst m /\
  match snd c, snd m with
  | Ok (Some q, h'), Ok (Some r) => leaves h q r h'
  | Ok (None, h'), Ok None => (exists n, h' = h ++ repeat None n) /\ bounded h'
  | UB w, UB w' => w = w'
  | Exit n, Exit n' => n = n'
  | _, _ => False
  end.

(** There is no memory for a block: the program ends, with a message. *)
Definition gave_up {A B} (h : heap) (c : talk A) (m : talk B) : Prop :=
  exists o o' message more n, refusal_of (h ++ more) n = Some message /\
    c = (o ++ [(Stderr, bs "detox: out of memory: " ++ message ++ [newline])], Exit EXIT_FAILURE) /\ fst m = o ++ o'.

Definition same (h : heap) (c : talk (option ptr * heap)) (m : talk (option str)) : Prop := agrees h c m \/ gave_up h c m.

Definition some (t : talk str) : talk (option str) := let% x := t in done (Some x).

Lemma gave_up_talk {A B C} (h0 : heap) (t : talk A) (k : A -> talk B) (k' : A -> talk C) :
  (forall a, snd t = Ok a -> gave_up h0 (k a) (k' a)) -> (exists a, snd t = Ok a) -> gave_up h0 (tbind t k) (tbind t k').
Proof.
  intros H [a E]. destruct t as [o [x|w|c]]; cbn in E; try discriminate. injection E as <-. specialize (H x eq_refl).
  cbn [tbind]. destruct (k x) as [o4 r4], (k' x) as [o3 r3]. destruct H as (o1 & o2 & message & h & n & R & [= -> ->] & E). cbn in E. subst o3.
  exists (o ++ o1), o2, message, h, n. cbn [fst]. rewrite !app_assoc. auto.
Qed.

Lemma same_talk {A} h (t : talk A) k' k : (forall a, snd t = Ok a -> same h (k a) (k' a)) -> same h (tbind t k) (tbind t k').
Proof.
  intros H. destruct t as [o [a|w|c]]; [|left; split; reflexivity..]. specialize (H a eq_refl). destruct H as [H|H].
  - left. cbn. destruct (k a) as [o1 r1], (k' a) as [o2 r2]. destruct H as [H1 H2]. cbn in H1. subst o2. split; [reflexivity|exact H2].
  - right. apply gave_up_talk; [|now exists a]. now intros x [= <-].
Qed.

Lemma malloc_step {A B} (h1 : heap) n (k : ptr -> mem A) (m : talk B) (S : talk (A * heap) -> Prop) :
  (bounded (h1 ++ [Some (repeat None (N.to_nat n))]) -> S (k (mkPtr (length h1) 0) (h1 ++ [Some (repeat None (N.to_nat n))]))) ->
  (forall c, gave_up h1 c m -> S c) ->
  S (mbind (malloc n) k h1).
Proof.
  intros H G. unfold mbind, malloc. destruct (refusal_of h1 n) as [message|] eqn:E.
  - apply G. exists [], (fst m), message, [], n. rewrite app_nil_r. splits; auto.
  - rewrite tbind_done. apply H. pose proof (Lim _ _ E). unfold bounded. rewrite size_app, size_one, repeat_length. lia.
Qed.

Lemma strdup_of_step {A B} (h1 : heap) s (k : ptr -> mem A) (m : talk B) (S : talk (A * heap) -> Prop) : fits s ->
  (bounded (h1 ++ [Some (map Some s ++ [Some NUL])]) -> S (k (mkPtr (length h1) 0) (h1 ++ [Some (map Some s ++ [Some NUL])]))) ->
  (forall c, gave_up h1 c m -> S c) ->
  S (mbind (c_strdup_of s) k h1).
Proof.
  intros L H G. unfold c_strdup_of. rewrite mbind_assoc. apply (malloc_step _ _ _ m); auto. intros Bd. rewrite (size_t_small _ L) in *.
  rewrite mbind_assoc. change (mkPtr (length h1) 0) with (mkPtr (length h1) (@length byte [])).
  rewrite (write_step _ _ _ (strlen s + 1)) by apply malloc_building. rewrite wrs_fits.
  - rewrite app_nil_r. change (quietly (Ok (rev (s ++ [NUL])))) with (done (rev (s ++ [NUL]))). rewrite tbind_done.
    rewrite set_last, filled_string, mbind_ret. apply H. revert Bd. unfold bounded. rewrite !size_app, !size_one, repeat_length, app_length, map_length.
    unfold strlen. cbn [length]. lia.
  - unfold strlen. rewrite app_length. cbn [length]. lia.
Qed.

Lemma strdup_step {A B} (h1 : heap) p s (k : ptr -> mem A) (m : talk B) (S : talk (A * heap) -> Prop) : cstr_at h1 p s -> fits s ->
  (bounded (h1 ++ [Some (map Some s ++ [Some NUL])]) -> S (k (mkPtr (length h1) 0) (h1 ++ [Some (map Some s ++ [Some NUL])]))) ->
  (forall c, gave_up h1 c m -> S c) ->
  S (mbind (c_strdup p) k h1).
Proof.
  intros C L H G. unfold c_strdup. rewrite mbind_assoc, (mbind_done _ _ _ _ _ (read_ok _ _ _ C)). exact (strdup_of_step h1 s k m S L H G).
Qed.

Lemma gave_up_later {A B} h h1 (c : talk A) (m : talk B) : gave_up h1 c m -> (exists more, h1 = h ++ more) -> gave_up h c m.
Proof. intros (o & o' & message & more & n & R & E) (more' & ->). exists o, o', message, (more' ++ more), n. rewrite app_assoc. auto. Qed.

Lemma same_gave_up h m : forall c, gave_up h c m -> same h c m.
Proof. intros c H. now right. Qed.

Lemma same_gave_up_later h h1 m : (exists more, h1 = h ++ more) -> forall c, gave_up h1 c m -> same h c m.
Proof. intros E c H. right. eapply gave_up_later; eauto. Qed.

Lemma filled_end cap acc : length (NUL :: acc) <= N.to_nat cap ->
  exists rest, filled cap (NUL :: acc) = map Some (cstr (rev acc)) ++ Some NUL :: rest.
Proof.
  intros L. unfold filled. cbn [rev]. rewrite map_app, <- app_assoc. cbn [map app].
  generalize (repeat (@None byte) (N.to_nat cap - length (NUL :: acc))). generalize (rev acc) as s.
  induction s as [|c s IH]; intros rest; cbn [map app cstr].
  - now exists rest.
  - destruct (beq c NUL) eqn:E.
    + apply beq_eq in E. subst c. cbn [map app]. eauto.
    + destruct (IH rest) as [rest' ->]. cbn [map app]. eauto.
Qed.

Lemma leaves_last (h : heap) r rest : nonul r -> bounded (h ++ [Some (map Some r ++ Some NUL :: rest)]) -> leaves h (mkPtr (length h) 0) r (h ++ [Some (map Some r ++ Some NUL :: rest)]).
Proof. intros N. exists 0, 0, rest. cbn [repeat app]. rewrite Nat.add_0_r. auto. Qed.

(** The NUL at the end. *)
Lemma same_finish (h : heap) cap t m : bounded (h ++ [Some (repeat None (N.to_nat cap))]) -> built (h ++ [Some (repeat None (N.to_nat cap))]) (length h) cap t m ->
  same h (let% (w, h') := m in mbind (store w NUL) (fun _ => mret (Some (mkPtr (length h) 0))) h')
         (some (tbind t (fun acc => quietly (finish cap acc)))).
Proof.
  intros C [-> L]. unfold some. rewrite !tbind_assoc. apply same_talk. intros acc E. specialize (L acc E). rewrite tbind_done.
  unfold upd. rewrite set_last. assert (Bu : building (h ++ [Some (filled cap acc)]) (length h) cap acc).
  { split; [apply nth_last|exact L]. }
  rewrite (store_step _ _ _ _ _ (mret (Some (mkPtr (length h) 0))) Bu). unfold finish. rewrite quietly_bind. apply same_talk. cbn [quietly snd].
  intros acc' W. destruct (wr_length _ _ _ _ W) as [-> L']. rewrite set_last.
  change (quietly (Ok (cstr (rev (NUL :: acc))))) with (done (cstr (rev (NUL :: acc)))). rewrite tbind_done.
  left. split; [reflexivity|]. cbn [snd mret done quietly rev]. rewrite cstr_app_nul. destruct (filled_end _ _ L') as [rest F]. rewrite F.
  apply leaves_last; [apply nonul_cstr|]. rewrite <- F. revert C. unfold bounded.
  rewrite !size_app, !size_one, repeat_length, filled_length by exact L'. auto.
Qed.

(** ** The loops *)

Definition go {V A} (rec : V -> mem A) (x : V + A) : mem A := match x with inl v => rec v | inr a => mret a end.

Lemma built_rounds b cap (body : ptr * ptr -> mem (ptr * ptr + ptr)) (L : str -> list byte -> talk (list byte)) :
  (forall s rec p acc h, cstr_at h p s -> p_block p <> b -> building h b cap acc ->
     (forall s' p' acc' h', length s' < length s -> p_block p' <> b -> cstr_at h' p' s' -> building h' b cap acc' ->
        built h' b cap (L s' acc') (rec (p', mkPtr b (length acc')) h')) ->
     built h b cap (L s acc) (mbind (body (p, mkPtr b (length acc))) (go rec) h)) ->
  forall fuel s p acc h, cstr_at h p s -> p_block p <> b -> building h b cap acc -> length s < fuel ->
  built h b cap (L s acc) (rounds fuel body (p, mkPtr b (length acc)) h).
Proof.
  intros Step. induction fuel as [|fuel IH]; intros s p acc h H P Bu F; [lia|]. rewrite rounds_S.
  apply Step; auto. intros s' p' acc' h' F' P' H' Bu'. apply IH; auto. lia.
Qed.

Lemma built_while (h : heap) cap (body : ptr * ptr -> mem (ptr * ptr + ptr)) (L : str -> list byte -> talk (list byte)) s p :
  bounded (h ++ [Some (repeat None (N.to_nat cap))]) -> cstr_at h p s ->
  (forall s rec p acc h', cstr_at h' p s -> p_block p <> length h -> building h' (length h) cap acc ->
     (forall s' p' acc' h', length s' < length s -> p_block p' <> length h -> cstr_at h' p' s' -> building h' (length h) cap acc' ->
        built h' (length h) cap (L s' acc') (rec (p', mkPtr (length h) (length acc')) h')) ->
     built h' (length h) cap (L s acc) (mbind (body (p, mkPtr (length h) (length acc))) (go rec) h')) ->
  same h (mbind (while body (p, mkPtr (length h) 0)) (fun w => mbind (store w NUL) (fun _ => mret (Some (mkPtr (length h) 0))))
            (h ++ [Some (repeat None (N.to_nat cap))]))
         (some (tbind (L s []) (fun acc => quietly (finish cap acc)))).
Proof.
  intros C H Step. unfold mbind at 1. apply same_finish; [exact C|]. unfold while. change (mkPtr (length h) 0) with (mkPtr (length h) (@length byte [])).
  apply built_rounds; auto.
  - now apply cstr_old.
  - pose proof (cstr_live _ _ _ H). lia.
  - apply malloc_building.
  - apply (cstr_old _ [Some (repeat None (N.to_nat cap))]) in H. apply cstr_size in H. lia.
Qed.

(** One round that writes a byte, or some, and goes on. *)
Lemma put_round b cap (rec : ptr * ptr -> mem ptr) K p acc c h : building h b cap acc ->
  (forall acc' h', h' = upd h b cap acc' -> building h' b cap acc' -> built h' b cap (K acc') (rec (p, mkPtr b (length acc')) h')) ->
  built h b cap (tbind (quietly (wr cap acc c)) K)
    (mbind (mbind (store (mkPtr b (length acc)) c) (fun _ => mret (inl (p, plus (mkPtr b (length acc)) 1)))) (go rec) h).
Proof.
  intros Bu H. rewrite mbind_assoc.
  apply (built_store _ _ _ _ _ _ (mbind (mret (inl (p, plus (mkPtr b (length acc)) 1))) _) Bu). intros h' E Bu'.
  rewrite mbind_ret, plus_built. cbn [go]. exact (H (c :: acc) h' E Bu').
Qed.

Lemma write_round b cap (rec : ptr * ptr -> mem ptr) K p acc r h : building h b cap acc ->
  (forall acc' h', h' = upd h b cap acc' -> building h' b cap acc' -> built h' b cap (K acc') (rec (p, mkPtr b (length acc')) h')) ->
  built h b cap (tbind (quietly (wrs cap acc r)) K)
    (mbind (mbind (c_write (mkPtr b (length acc)) r) (fun w => mret (inl (p, w)))) (go rec) h).
Proof.
  intros Bu H. rewrite mbind_assoc. apply (built_write _ _ _ _ _ _ _ Bu). intros acc' h' E Bu'.
  rewrite mbind_ret. cbn [go]. exact (H acc' h' E Bu').
Qed.

(** The first byte of what is left. *)
Ltac first_byte s H X :=
  destruct s as [|c s];
  [ rewrite mbind_assoc, (mbind_done _ _ _ _ _ (cstr_nil _ _ H)), beq_refl, mbind_ret
  | destruct (cstr_cons _ _ _ _ H) as (X & H' & N); rewrite mbind_assoc, (mbind_done _ _ _ _ _ X); clear X;
    destruct (beq c NUL) eqn:X; [now apply beq_eq in X|clear X] ].

(** ** The filters *)

Lemma iso8859_1_same h p s t : cstr_at h p s ->
  same h (c_clean_iso8859_1 (Some p) t h) (some (clean_iso8859_1_says s t)).
Proof.
  intros H. unfold c_clean_iso8859_1, clean_iso8859_1_says. destruct t as [t|]; [|left; split; reflexivity].
  rewrite (mbind_done _ _ _ _ _ (strlen_ok _ _ _ H)).
  change (size_t (size_t (strlen s * N.of_nat (t_maxdata t)) + 1)) with (table_cap t s).
  unfold clean_iso8859_1. cbv zeta. rewrite quietly_do. set (cap := table_cap t s).
  eapply malloc_step; [|apply same_gave_up]. intros Bd.
  apply (built_while h cap _ (fun s acc => quietly (iso8859_1_loop cap t s acc)) s p Bd H).
  clearbody cap. clear - al. intros s rec p acc h' H P Bu IH. first_byte s H X.
  - now apply built_done.
  - assert (Rec : forall acc' h'', h'' = upd h' (length h) cap acc' -> building h'' (length h) cap acc' ->
              built h'' (length h) cap (quietly (iso8859_1_loop cap t s acc')) (rec (plus p 1, mkPtr (length h) (length acc')) h'')).
    { intros acc' h'' -> Bu'. apply IH; auto. now apply cstr_upd. }
    cbn [iso8859_1_loop].
    destruct (N.land (bN c) 0x80 =? 0)%N.
    { rewrite quietly_do. now apply put_round. }
    destruct (table_get t (bN c)); [|destruct (t_default t)]; rewrite quietly_do.
    + now apply write_round.
    + now apply write_round.
    + now apply put_round.
Qed.

Lemma safe_same schar h p s t : cstr_at h p s ->
  same h (c_clean_safe schar (Some p) t h) (some (clean_safe_says schar s t)).
Proof.
  intros H. unfold c_clean_safe, clean_safe_says. destruct t as [t|]; [|left; split; reflexivity].
  rewrite (mbind_done _ _ _ _ _ (strlen_ok _ _ _ H)).
  change (size_t (size_t (strlen s * N.of_nat (t_maxdata t)) + 1)) with (table_cap t s).
  unfold clean_safe. cbv zeta. rewrite quietly_do. set (cap := table_cap t s).
  eapply malloc_step; [|apply same_gave_up]. intros Bd.
  apply (built_while h cap _ (fun s acc => quietly (safe_loop schar cap t s acc)) s p Bd H).
  clearbody cap. clear - al. intros s rec p acc h' H P Bu IH. first_byte s H X.
  - now apply built_done.
  - assert (Rec : forall acc' h'', h'' = upd h' (length h) cap acc' -> building h'' (length h) cap acc' ->
              built h'' (length h) cap (quietly (safe_loop schar cap t s acc')) (rec (plus p 1, mkPtr (length h) (length acc')) h'')).
    { intros acc' h'' -> Bu'. apply IH; auto. now apply cstr_upd. }
    cbn [safe_loop].
    destruct (table_get t (char_key schar c)); [|destruct (t_default t)]; rewrite quietly_do.
    + now apply write_round.
    + now apply write_round.
    + now apply put_round.
Qed.

Lemma lower_same ct h p s : cstr_at h p s ->
  same h (c_clean_lower ct (Some p) h) (some (quietly (clean_lower ct s))).
Proof.
  intros H. unfold c_clean_lower.
  rewrite (mbind_done _ _ _ _ _ (strlen_ok _ _ _ H)).
  unfold clean_lower. cbv zeta. rewrite quietly_do. set (cap := size_t (strlen s + 1)).
  eapply malloc_step; [|apply same_gave_up]. intros Bd.
  apply (built_while h cap _ (fun s acc => quietly (lower_loop ct cap s acc)) s p Bd H).
  clearbody cap. clear - al. intros s rec p acc h' H P Bu IH. first_byte s H X.
  - now apply built_done.
  - assert (Rec : forall acc' h'', h'' = upd h' (length h) cap acc' -> building h'' (length h) cap acc' ->
              built h'' (length h) cap (quietly (lower_loop ct cap s acc')) (rec (plus p 1, mkPtr (length h) (length acc')) h'')).
    { intros acc' h'' -> Bu'. apply IH; auto. now apply cstr_upd. }
    cbn [lower_loop]. destruct (ct_isupper ct c); rewrite quietly_do; now apply put_round.
Qed.

Lemma uncgi_three cap c h1 h2 s acc : uncgi_loop cap (c :: h1 :: h2 :: s) acc =
  (if beq c "%" && isxdigit h1 && isxdigit h2 then do a <- wr cap acc (Nb (hexval h1 * 16 + hexval h2)); uncgi_loop cap s a
   else if beq c "+" then do a <- wr cap acc " "; uncgi_loop cap (h1 :: h2 :: s) a
   else do a <- wr cap acc c; uncgi_loop cap (h1 :: h2 :: s) a)%byte.
Proof. reflexivity. Qed.

Lemma uncgi_same h p s : cstr_at h p s ->
  same h (c_clean_uncgi (Some p) h) (some (quietly (clean_uncgi s))).
Proof.
  intros H. unfold c_clean_uncgi.
  rewrite (mbind_done _ _ _ _ _ (strlen_ok _ _ _ H)).
  unfold clean_uncgi. cbv zeta. rewrite quietly_do. set (cap := size_t (strlen s + 1)).
  eapply malloc_step; [|apply same_gave_up]. intros Bd.
  apply (built_while h cap _ (fun s acc => quietly (uncgi_loop cap s acc)) s p Bd H).
  clearbody cap. clear - al. intros s rec p acc h' H P Bu IH. first_byte s H X.
  - now apply built_done.
  - assert (Rec : forall acc' h'', h'' = upd h' (length h) cap acc' -> building h'' (length h) cap acc' ->
              built h'' (length h) cap (quietly (uncgi_loop cap s acc')) (rec (plus p 1, mkPtr (length h) (length acc')) h'')).
    { intros acc' h'' -> Bu'. apply IH; auto. now apply cstr_upd. }
    assert (One : built h' (length h) cap (quietly (if beq c "+" then do a <- wr cap acc " "; uncgi_loop cap s a else do a <- wr cap acc c; uncgi_loop cap s a)%byte)
       (mbind (mbind (store (mkPtr (length h) (length acc)) (if beq c "+" then " " else c)%byte)
                 (fun _ => mret (inl (plus p 1, plus (mkPtr (length h) (length acc)) 1)))) (go rec) h')).
    { destruct (beq c "+"); rewrite quietly_do; now apply put_round. }
    rewrite mbind_assoc. destruct (beq c "%") eqn:C.
    2:{ rewrite mbind_ret. destruct s as [|h1 [|h2 s]]; cbn [uncgi_loop]; rewrite ?C; exact One. }
    rewrite mbind_assoc. destruct s as [|h1 s].
    { rewrite (mbind_done _ _ _ _ _ (cstr_nil _ _ H')). change (isxdigit NUL) with false. cbv iota. rewrite mbind_ret. exact One. }
    destruct (cstr_cons _ _ _ _ H') as (X & H2 & _). rewrite (mbind_done _ _ _ _ _ X). clear X.
    replace (plus (plus p 1) 1) with (plus p 2) in H2 by (unfold plus; cbn; f_equal; lia).
    destruct (isxdigit h1) eqn:X1.
    2:{ rewrite mbind_ret. destruct s as [|h2 s]; cbn [uncgi_loop]; rewrite ?C, ?X1; exact One. }
    rewrite mbind_assoc. destruct s as [|h2 s].
    { rewrite (mbind_done _ _ _ _ _ (cstr_nil _ _ H2)). change (isxdigit NUL) with false. cbv iota. rewrite mbind_ret. exact One. }
    destruct (cstr_cons _ _ _ _ H2) as (X & H3 & _). rewrite (mbind_done _ _ _ _ _ X), mbind_ret. clear X.
    replace (plus (plus p 2) 1) with (plus p 3) in H3 by (unfold plus; cbn; f_equal; lia).
    rewrite uncgi_three, C, X1. destruct (isxdigit h2) eqn:X2; [|exact One].
    cbn [andb]. rewrite quietly_do. apply put_round; auto. intros acc' h'' -> Bu'. apply IH; auto; [cbn; lia|]. now apply cstr_upd.
Qed.

(** *** clean_utf_8 *)

Lemma cont_same n : forall v p rest eaten h, cstr_at h (plus p 1) rest ->
  match utf_8_cont_loop n v rest eaten with
  | inl (v', e, r) =>
      c_continuation n v p h = done ((Some v', plus p n), h) /\ cstr_at h (plus (plus p n) 1) r /\
      exists conts, e = rev eaten ++ conts /\ rest = conts ++ r /\ length conts = n
  | inr r => exists q,
      c_continuation n v p h =
        tbind (complain (match r with
                         | [] => bs "detox: warning: UTF-8 sequence ended unexpectedly (null)"
                         | _ => bs "detox: warning: UTF-8 sequence ended unexpectedly (missing con't)"
                         end)) (fun _ => done ((None, q), h)) /\
      cstr_at h q r /\ p_block q = p_block p /\ length r <= length rest
  end.
Proof.
  induction n as [|n IH]; intros v p rest eaten h H; cbn [utf_8_cont_loop c_continuation].
  - rewrite (ltac:(unfold plus; destruct p; cbn; f_equal; lia) : plus p 0 = p). splits; auto. exists []. rewrite app_nil_r. auto.
  - destruct rest as [|c rest].
    + rewrite (mbind_done _ _ _ _ _ (cstr_nil _ _ H)), beq_refl. exists (plus p 1). rewrite mbind_outside. splits; auto.
    + destruct (cstr_cons _ _ _ _ H) as (X & H' & N). rewrite (mbind_done _ _ _ _ _ X). destruct (beq c NUL) eqn:E; [now apply beq_eq in E|].
      destruct (is_utf_8_cont c); cbn [negb].
      * specialize (IH ((v * 64 + unpack_cont c) mod 2 ^ 32)%N (plus p 1) rest (c :: eaten) h H').
        destruct (utf_8_cont_loop n ((v * 64 + unpack_cont c) mod 2 ^ 32) rest (c :: eaten)) as [[[v' e] r]|r].
        -- destruct IH as (E1 & E2 & conts & -> & -> & E3).
           replace (plus p (S n)) with (plus (plus p 1) n) by (unfold plus; cbn; f_equal; lia). splits; auto.
           exists (c :: conts). cbn [rev app length]. rewrite <- app_assoc. auto.
        -- destruct IH as (q & E1 & E2 & E3 & E4). exists q. splits; auto. cbn [length]. lia.
      * exists (plus p 1). rewrite mbind_outside. splits; auto.
Qed.

Lemma copy_step {A} s1 : forall s2 h p b cap acc (k : ptr -> mem A), building h b cap acc -> p_block p <> b -> cstr_at h p (s1 ++ s2) ->
  mbind (c_copy (length s1) p (mkPtr b (length acc))) k h = mbind (c_write (mkPtr b (length acc)) s1) k h.
Proof.
  induction s1 as [|c s1 IH]; intros s2 h p b cap acc k Bu P H; cbn [length c_copy c_write]; [reflexivity|].
  destruct (cstr_cons _ _ _ _ H) as (X & H' & N). rewrite !mbind_assoc, (mbind_done _ _ _ _ _ X), mbind_assoc.
  rewrite !(fun k => store_step h b cap acc c k Bu). apply tbind_ext. cbn [quietly snd]. intros acc' W.
  destruct (wr_length _ _ _ _ W) as [-> L]. rewrite plus_built. apply (IH s2 _ _ _ cap (c :: acc)); auto.
  - now apply (building_set _ _ _ acc).
  - now apply cstr_set.
Qed.

Lemma utf_8_says_fuel cap t : forall fuel fuel' s acc, length s <= fuel -> length s <= fuel' ->
  utf_8_loop_says fuel cap t s acc = utf_8_loop_says fuel' cap t s acc.
Proof.
  assert (C : forall n v rest eaten, match utf_8_cont_loop n v rest eaten with inl (_, _, r) => length r <= length rest | inr r => length r <= length rest end).
  { induction n as [|n IH]; intros v rest eaten; cbn [utf_8_cont_loop]; auto. destruct rest as [|c rest]; auto.
    destruct (is_utf_8_cont c); auto. specialize (IH ((v * 64 + unpack_cont c) mod 2 ^ 32)%N rest (c :: eaten)).
    destruct (utf_8_cont_loop n _ rest (c :: eaten)) as [[[v' e] r]|r]; cbn [length]; lia. }
  induction fuel as [|fuel IH]; intros fuel' [|c s] acc F F'; cbn in F, F'; try lia; (destruct fuel' as [|fuel']; [cbn in F'; try lia|]); try reflexivity.
  cbn [utf_8_loop_says]. destruct (get_utf_8_width c) as [w|].
  - specialize (C (w - 1) (unpack_start c w) s []). destruct (utf_8_cont_loop (w - 1) (unpack_start c w) s []) as [[[v e] r]|r].
    + apply tbind_ext. intros [] _. apply tbind_ext. intros a _. apply IH; lia.
    + apply tbind_ext. intros [] _. apply tbind_ext. intros a _. apply IH; lia.
  - apply tbind_ext. intros [] _. apply tbind_ext. intros a _. apply IH; lia.
Qed.

Lemma width_pos c w : get_utf_8_width c = Some w -> 1 <= w.
Proof.
  unfold get_utf_8_width. cbv zeta.
  repeat match goal with |- context [if ?b then _ else _] => destruct b end; intros [= <-]; lia.
Qed.

Lemma utf_8_same h p s t : cstr_at h p s ->
  same h (c_clean_utf_8 (Some p) t h) (some (clean_utf_8_says s t)).
Proof.
  intros H. unfold c_clean_utf_8, clean_utf_8_says. destruct t as [t|]; [|left; split; reflexivity].
  rewrite (mbind_done _ _ _ _ _ (strlen_ok _ _ _ H)).
  change (size_t (size_t (strlen s * N.of_nat (t_maxdata t)) + 1)) with (table_cap t s). cbv zeta. set (cap := table_cap t s).
  eapply malloc_step; [|apply same_gave_up]. intros Bd.
  apply (built_while h cap _ (fun s acc => utf_8_loop_says (length s) cap t s acc) s p Bd H).
  clearbody cap. clear - al. intros s rec p acc h' H P Bu IH. first_byte s H X.
  - now apply built_done.
  - assert (Rec : forall s' q acc' h'', length s' <= length s -> cstr_at h' q s' -> p_block q <> length h -> h'' = upd h' (length h) cap acc' ->
              building h'' (length h) cap acc' ->
              built h'' (length h) cap (utf_8_loop_says (length s) cap t s' acc') (rec (q, mkPtr (length h) (length acc')) h'')).
    { intros s' q acc' h'' F Hq Pq -> Bu'. rewrite (utf_8_says_fuel _ _ _ (length s')) by lia. apply IH; auto; [cbn; lia|]. now apply cstr_upd. }
    cbn [length utf_8_loop_says]. destruct (get_utf_8_width c) as [w|] eqn:W.
    2:{ rewrite mbind_assoc, mbind_outside. apply built_talk. intros [] _. apply put_round; eauto. }
    apply width_pos in W. pose proof (cont_same (w - 1) (unpack_start c w) p s [] h' H') as C.
    destruct (utf_8_cont_loop (w - 1) (unpack_start c w) s []) as [[[v e] r]|r].
    + destruct C as (E & Hr & conts & -> & -> & Lc). rewrite mbind_assoc, (mbind_done _ _ _ _ _ E). cbn [rev app].
      rewrite mbind_assoc, mbind_outside. apply built_talk. intros [] _.
      assert (F : length r <= length (conts ++ r)) by (rewrite app_length; lia).
      destruct (utf_8_replacement t v) as [replace|].
      * apply write_round; auto.
      * replace (mkPtr (p_block (plus (plus p (w - 1)) 1)) (p_off (plus (plus p (w - 1)) 1) - w)) with p.
        2:{ unfold plus. cbn [p_block p_off]. destruct p as [pb po]. cbn [p_block p_off]. f_equal. lia. }
        set (q := plus (plus p (w - 1)) 1) in *. assert (Pq : p_block q <> length h) by exact P. clearbody q.
        replace w with (length (c :: conts)) by (cbn [length]; lia). rewrite mbind_assoc.
        rewrite (copy_step _ r _ _ _ cap); auto. rewrite <- mbind_assoc. apply write_round; auto.
    + destruct C as (q & E & Hr & Pq & F). rewrite mbind_assoc. unfold mbind at 1. rewrite E, tbind_assoc. apply built_talk. intros [] _.
      rewrite tbind_done. cbv beta iota. apply put_round; auto. intros. apply Rec; auto. congruence.
Qed.

(** *** clean_wipeup *)

Lemma mbind_ext {A B} (m : mem A) (k k' : A -> mem B) h : (forall a h', k a h' = k' a h') -> mbind m k h = mbind m k' h.
Proof. intros H. unfold mbind. apply tbind_ext. intros [a h'] _. apply H. Qed.

Lemma skip_same s : forall fuel p h, cstr_at h p s -> length s < fuel ->
  exists q, rounds fuel (fun filename => let* c := load filename in
     if (beq c "-" || beq c "_" || beq c "#")%byte then mret (inl (plus filename 1)) else mret (inr filename)) p h = done (q, h) /\
   cstr_at h q (wipeup_skip s) /\ p_block q = p_block p.
Proof.
  induction s as [|c s IH]; intros fuel p h H F; (destruct fuel as [|fuel]; [lia|]); cbn in F; rewrite rounds_S, mbind_assoc.
  - rewrite (mbind_done _ _ _ _ _ (cstr_nil _ _ H)). exists p. splits; auto.
  - destruct (cstr_cons _ _ _ _ H) as (X & H' & N). rewrite (mbind_done _ _ _ _ _ X). cbn [wipeup_skip].
    destruct (beq c "-" || beq c "_" || beq c "#")%byte.
    + rewrite mbind_ret. apply (IH fuel) in H'; [|lia]. exact H'.
    + rewrite mbind_ret. exists p. splits; auto.
Qed.

Lemma strchr_ok srch : forall p c h, cstr_at h p srch -> c <> NUL ->
  c_strchr p c h = done (option_map (plus p) (strchr_idx srch c 0), h).
Proof.
  intros p c h H Nc. unfold c_strchr, while.
  assert (G : forall srch fuel p0 i, cstr_at h p0 srch -> p0 = plus p i -> length srch < fuel ->
            rounds fuel (fun p => let* x := load p in if beq x c then mret (inr (Some p)) else if beq x NUL then mret (inr None) else mret (inl (plus p 1))) p0 h
            = done (option_map (plus p) (strchr_idx srch c i), h)).
  { clear H srch. induction srch as [|x srch IH]; intros fuel p0 i H -> F; (destruct fuel as [|fuel]; [lia|]); cbn in F; rewrite rounds_S, mbind_assoc.
    - rewrite (mbind_done _ _ _ _ _ (cstr_nil _ _ H)). destruct (beq NUL c) eqn:E; [apply beq_eq in E; congruence|]. reflexivity.
    - destruct (cstr_cons _ _ _ _ H) as (X & H' & N). rewrite (mbind_done _ _ _ _ _ X). cbn [strchr_idx].
      destruct (beq x c); [reflexivity|]. destruct (beq x NUL) eqn:E; [now apply beq_eq in E|]. rewrite mbind_ret. apply IH; auto; [|lia].
      unfold plus. cbn. f_equal. lia. }
  apply G; auto.
  - unfold plus. destruct p. cbn. f_equal. lia.
  - apply cstr_size in H. lia.
Qed.

Lemma strchr_idx_bound srch c : forall i k, strchr_idx srch c i = Some k -> i <= k < i + length srch.
Proof.
  induction srch as [|x srch IH]; intros i k; cbn [strchr_idx length]; [discriminate|].
  destruct (beq x c); [intros [= <-]; lia|]. intros E. apply IH in E. lia.
Qed.

Lemma load_nth s : forall h p i, cstr_at h p s -> i < length s -> load (plus p i) h = done (nth i s NUL, h).
Proof.
  induction s as [|c s IH]; intros h p i H L; cbn in L; [lia|]. destruct (cstr_cons _ _ _ _ H) as (X & H' & N). destruct i as [|i].
  - replace (plus p 0) with p by (unfold plus; destruct p; cbn; f_equal; lia). exact X.
  - replace (plus p (S i)) with (plus (plus p 1) i) by (unfold plus; cbn; f_equal; lia). apply IH; auto. lia.
Qed.

Lemma wipeup_same h p s rt : cstr_at h p s ->
  same h (c_clean_wipeup (Some p) rt h) (some (quietly (clean_wipeup s rt))).
Proof.
  intros H. unfold c_clean_wipeup. unfold while at 1.
  destruct (skip_same s (S (heap_size h)) p h H) as (q & E & Hq & Bq); [apply cstr_size in H; lia|].
  unfold mbind at 1. rewrite E, tbind_done. cbv beta iota. clear E.
  rewrite (mbind_done _ _ _ _ _ (strlen_ok _ _ _ Hq)). eapply malloc_step; [|apply same_gave_up]. intros _.
  unfold clean_wipeup. cbv zeta. set (f := wipeup_skip s) in *. set (cap := size_t (strlen f + 1)).
  set (srch := if rt then bs ".-_" else bs "-_").
  assert (Nsrch : nonul srch) by (unfold srch; destruct rt; cbn; unfold nonul; cbn; intuition discriminate).
  eapply (strdup_of_step _ srch); [unfold srch; destruct rt; reflexivity| |apply same_gave_up_later; eauto]. intros Bd.
  set (blk := map Some srch ++ [Some NUL]). rewrite app_length. cbn [length]. rewrite Nat.add_1_r.
  set (put := fun (current : option ptr) (output_walk : ptr) =>
      match current with
      | Some p => let* x := load p in let* _ := store output_walk x in mret (plus output_walk 1)
      | None => mret output_walk
      end).
  set (search := mkPtr (S (length h)) 0).
  match goal with |- context [while ?body] => set (B := body) end.
  set (h1 := (h ++ [Some (repeat None (N.to_nat cap))]) ++ [Some blk]).
  assert (Bl : forall fuel s p acc cur h', cstr_at h' p s -> p_block p <> length h -> building h' (length h) cap acc ->
    cstr_at h' search srch -> (forall i, cur = Some i -> i < length srch) -> length s < fuel ->
    built h' (length h) cap (quietly (wipeup_loop cap srch s cur acc))
      (mbind (rounds fuel B (p, mkPtr (length h) (length acc), option_map (plus search) cur)) (fun '(w, cur) => put cur w) h')).
  { clearbody cap srch. clear s p f q Bq Hq H Bd. induction fuel as [|fuel IH]; intros s p acc cur h' H P Bu Hs Hc F; [lia|].
    assert (Sb : p_block search <> length h) by (unfold search; cbn; lia).
    assert (Put : forall (K' : list byte -> talk (list byte)) (K : ptr -> mem ptr),
      (forall acc' h'', h'' = upd h' (length h) cap acc' -> building h'' (length h) cap acc' ->
         built h'' (length h) cap (K' acc') (K (mkPtr (length h) (length acc')) h'')) ->
      built h' (length h) cap (tbind (quietly (match cur with Some i => wr cap acc (nth i srch NUL) | None => Ok acc end)) K')
        (mbind (put (option_map (plus search) cur) (mkPtr (length h) (length acc))) K h')).
    { intros K' K HK. destruct cur as [i|]; cbn [option_map put].
      - specialize (Hc i eq_refl). rewrite mbind_assoc, (mbind_done _ _ _ _ _ (load_nth _ _ _ _ Hs Hc)), mbind_assoc.
        apply (built_store _ _ _ _ _ _ (mbind (mret (plus (mkPtr (length h) (length acc)) 1)) K) Bu). intros h'' E Bu'.
        rewrite mbind_ret, plus_built. exact (HK (nth i srch NUL :: acc) h'' E Bu').
      - rewrite mbind_ret. change (quietly (Ok acc)) with (done acc). rewrite tbind_done. apply HK; auto. unfold upd. rewrite set_id; auto. apply Bu. }
    match goal with |- context [rounds (S fuel) B ?v] => change (rounds (S fuel) B v) with (mbind (B v) (go (rounds fuel B))) end.
    rewrite mbind_assoc. unfold B at 1. destruct s as [|c s].
    - rewrite mbind_assoc, (mbind_done _ _ _ _ _ (cstr_nil _ _ H)), beq_refl. cbv iota. rewrite mbind_ret. cbn [go wipeup_loop]. rewrite mbind_ret.
      specialize (Put (fun acc => done acc) (fun w => mret w)).
      replace (quietly _) with (tbind (quietly (match cur with Some i => wr cap acc (nth i srch NUL) | None => Ok acc end)) (fun acc => done acc)).
      + replace (put _ _ h') with (mbind (put (option_map (plus search) cur) (mkPtr (length h) (length acc))) (fun w => mret w) h').
        * apply Put. intros acc' h'' _ Bu'. now apply built_done.
        * unfold mbind. destruct (put _ _ h') as [o [[a h2]|w|n]]; cbn; rewrite ?app_nil_r; reflexivity.
      + destruct cur as [i|]; [|reflexivity]. destruct (wr cap acc (nth i srch NUL)); reflexivity.
    - destruct (cstr_cons _ _ _ _ H) as (X & H' & N). rewrite mbind_assoc, (mbind_done _ _ _ _ _ X). clear X. cbn in F.
      destruct (beq c NUL) eqn:X; [now apply beq_eq in X|clear X].
      rewrite mbind_assoc, (mbind_done _ _ _ _ _ (strchr_ok _ _ _ _ Hs N)). cbn [wipeup_loop].
      destruct (strchr_idx srch c 0) as [k|] eqn:K; cbn [option_map].
      + apply strchr_idx_bound in K. rewrite mbind_ret. cbv iota.
        replace (match option_map (plus search) cur with None => _ | Some c0 => _ end) with
          (option_map (plus search) (match cur with None => Some k | Some c0 => if k <? c0 then Some k else Some c0 end)).
        * apply IH; auto; [|lia]. intros i. destruct cur as [j|]; [|intros [= <-]; lia]. specialize (Hc j eq_refl).
          destruct (k <? j); intros [= <-]; lia.
        * destruct cur as [j|]; cbn [option_map]; [|reflexivity]. unfold plus, search. cbn [p_off p_block Nat.add]. now destruct (k <? j).
      + rewrite mbind_assoc, quietly_do. apply Put. intros acc' h'' -> Bu'. rewrite quietly_do, mbind_assoc.
        apply (built_store _ _ _ _ _ _ (mbind (mret (inl (plus p 1, plus (mkPtr (length h) (length acc')) 1, None))) _) Bu').
        intros h''' -> Bu''. rewrite mbind_ret, plus_built. cbv iota.
        apply (IH s (plus p 1) (c :: acc') None); auto; [..|discriminate|lia].
        * now repeat apply cstr_upd.
        * now repeat apply cstr_upd. }
  specialize (Bl (S (heap_size h1)) f q [] None h1).
  assert (Pq : p_block q <> length h) by (rewrite Bq; apply cstr_live in H; lia).
  assert (Hq1 : cstr_at h1 q f) by (unfold h1; now repeat apply cstr_old).
  assert (Bl' := Bl Hq1 Pq). clear Bl.
  match goal with |- same h ?x _ => replace x with
    (mbind (mbind (while B (q, mkPtr (length h) 0, None)) (fun '(w, cur) => put cur w))
       (fun w => let* _ := store w NUL in let* _ := free search in mret (Some (mkPtr (length h) 0))) h1) end.
  2:{ rewrite mbind_assoc. apply mbind_ext. now intros [w cur] h'. }
  unfold mbind at 1.
  assert (Hs1 : cstr_at h1 search srch).
  { apply (cstr_block _ _ _ []); [|exact Nsrch]. unfold h1. replace (S (length h)) with (length (h ++ [Some (repeat (@None byte) (N.to_nat cap))])); [apply nth_last|].
    rewrite app_length. cbn. lia. }
  destruct Bl' as [E L]; auto.
  { split; [|cbn; lia]. rewrite filled_nil. unfold h1. apply nth_old, nth_last. }
  { discriminate. }
  { apply cstr_size in Hq1. lia. }
  match type of E with ?l = _ => match goal with |- same h (tbind ?x _) _ => change x with l end end.
  rewrite E. clear E. rewrite quietly_do. unfold some. rewrite !tbind_assoc. apply same_talk. intros acc Ea. specialize (L acc Ea). rewrite tbind_done.
  assert (U : forall acc, upd h1 (length h) cap acc = h ++ [Some (filled cap acc); Some blk]).
  { clear. intros acc. unfold upd, h1. rewrite <- app_assoc. cbn [app]. replace (length h) with (length h + 0) by lia. now rewrite set_app_r. }
  cbv beta iota. rewrite U.
  assert (Bu : building (h ++ [Some (filled cap acc); Some blk]) (length h) cap acc).
  { split; [|exact L]. rewrite nth_error_app2, Nat.sub_diag; [reflexivity|lia]. }
  rewrite (store_step _ _ _ _ _ (mbind (free search) (fun _ => mret (Some (mkPtr (length h) 0)))) Bu). unfold finish. rewrite quietly_bind. apply same_talk. cbn [quietly snd].
  intros acc' W. destruct (wr_length _ _ _ _ W) as [-> L'].
  replace (length h) with (length h + 0) at 1 by lia. rewrite set_app_r. cbn [set_block].
  rewrite (mbind_done _ _ _ tt (h ++ [Some (filled cap (NUL :: acc)); None])).
  2:{ unfold search. rewrite (free_ok _ _ blk).
      - replace (S (length h)) with (length h + 1) by lia. now rewrite set_app_r.
      - rewrite nth_error_app2 by lia. now replace (S (length h) - length h) with 1 by lia. }
  change (quietly (Ok (cstr (rev (NUL :: acc))))) with (done (cstr (rev (NUL :: acc)))). rewrite tbind_done.
  left. split; [reflexivity|]. cbn [snd mret done quietly rev]. rewrite cstr_app_nul. destruct (filled_end _ _ L') as [rest F].
  exists 0, 1, rest. rewrite <- F. cbn [repeat app]. rewrite Nat.add_0_r. splits; auto; [apply nonul_cstr|].
  revert Bd. unfold bounded, h1. replace (h ++ [Some (filled cap (NUL :: acc)); None]) with ((h ++ [Some (filled cap (NUL :: acc))]) ++ repeat None 1) by now rewrite <- app_assoc.
  rewrite !size_app, !size_one, size_nones, repeat_length, filled_length by exact L'. lia.
Qed.

(** *** clean_max_length *)

Lemma skipn_skipn' {A} n m (l : list A) : skipn n (skipn m l) = skipn (m + n) l.
Proof. revert l. induction m as [|m IH]; intros [|x l]; cbn; auto. now destruct n. Qed.

Lemma set_cell_split cells i c : i < length cells -> set_cell cells i c = firstn i cells ++ Some c :: skipn (S i) cells.
Proof. revert i. induction cells as [|x cells IH]; intros [|i] L; cbn in L; try lia; [reflexivity|]. cbn. f_equal. apply IH. lia. Qed.

(** Bytes written over others. *)
Lemma write_over w : forall h b off cells, nth_error h b = Some (Some cells) -> off + length w <= length cells ->
  c_write (mkPtr b off) w h = done (mkPtr b (off + length w), set_block h b (Some (firstn off cells ++ map Some w ++ skipn (off + length w) cells))).
Proof.
  induction w as [|c w IH]; intros h b off cells B L; cbn [c_write length] in *.
  - rewrite Nat.add_0_r. cbn [map app]. rewrite firstn_skipn, set_id; auto.
  - rewrite (mbind_done _ _ _ tt (set_block h b (Some (set_cell cells off c)))).
    2:{ unfold store. cbn [p_block p_off]. rewrite B. destruct (Nat.ltb_spec off (length cells)); [reflexivity|lia]. }
    unfold plus. cbn [p_block p_off]. rewrite set_cell_split by lia.
    rewrite (IH _ _ _ (firstn off cells ++ Some c :: skipn (S off) cells)).
    + rewrite set_set. do 2 f_equal; [f_equal; lia|]. do 2 f_equal.
      assert (Lf : length (firstn off cells) = off) by (rewrite firstn_length; lia).
      rewrite firstn_app, Lf. replace (off + 1 - off) with 1 by lia. cbn [firstn].
      rewrite firstn_all2 by lia. rewrite <- app_assoc. cbn [app map]. do 3 f_equal.
      rewrite skipn_app, Lf. rewrite skipn_all2 by lia. cbn [app]. replace (off + 1 + length w - off) with (S (length w)) by lia. rewrite skipn_cons.
      rewrite skipn_skipn'. f_equal. lia.
    + apply set_same. apply nth_error_Some. congruence.
    + rewrite app_length, firstn_length. cbn [length]. rewrite skipn_length. lia.
Qed.

Lemma strrchr_ok c h p s : cstr_at h p s -> c <> NUL ->
  c_strrchr p c h = done (option_map (fun '(before, _) => plus p (length before)) (strrchr s c), h) /\
  forall before ext, strrchr s c = Some (before, ext) -> s = rev before ++ ext.
Proof.
  intros H Nc. unfold c_strrchr, while, strrchr.
  assert (G : forall rest fuel before found q,
    s = rev before ++ rest -> (forall b e, found = Some (b, e) -> s = rev b ++ e) -> q = plus p (length before) -> cstr_at h q rest -> length rest < fuel ->
    rounds fuel (fun '(p, found) =>
           let* x := load p in
           let found := if beq x c then Some p else found in
           if beq x NUL then mret (inr found) else mret (inl (plus p 1, found)))
      (q, option_map (fun '(before, _) => plus p (length before)) found) h =
    done (option_map (fun '(before, _) => plus p (length before)) (strrchr_from c before rest found), h) /\
    forall b e, strrchr_from c before rest found = Some (b, e) -> s = rev b ++ e).
  { clear H. induction rest as [|x rest IH]; intros fuel before found q E Hf -> H F; (destruct fuel as [|fuel]; [lia|]); cbn in F; rewrite rounds_S, mbind_assoc; cbn [strrchr_from].
    - rewrite (mbind_done _ _ _ _ _ (cstr_nil _ _ H)). destruct (beq NUL c) eqn:X; [apply beq_eq in X; congruence|].
      rewrite beq_refl, mbind_ret. split; auto.
    - destruct (cstr_cons _ _ _ _ H) as (X & H' & N). rewrite (mbind_done _ _ _ _ _ X). cbv zeta.
      destruct (beq x NUL) eqn:Y; [now apply beq_eq in Y|]. rewrite mbind_ret. cbv iota.
      replace (if beq x c then Some (plus p (length before)) else option_map (fun '(before0, _) => plus p (length before0)) found)
        with (option_map (fun '(before0, _) => plus p (length before0)) (if beq x c then Some (before, x :: rest) else found)) by now destruct (beq x c).
      apply IH; auto; [..|lia].
      + cbn [rev]. now rewrite <- app_assoc.
      + intros b e. destruct (beq x c); [intros [= <- <-]; exact E|apply Hf].
      + unfold plus. cbn. f_equal. lia. }
  specialize (G s (S (heap_size h)) [] None p). apply G; auto; [discriminate|unfold plus; destruct p; cbn; f_equal; lia|apply cstr_size in H; lia].
Qed.

Lemma second_ext_ok h p s ext d0 : cstr_at h p s -> cstr_at h (plus p d0) ext ->
  forall before at_ dist fuel, s = rev before ++ at_ -> d0 = length before + dist -> length before < fuel ->
  exists q, rounds fuel (fun input_walk =>
                     let input_walk := mkPtr (p_block input_walk) (p_off input_walk - 1) in
                     if p_off p <? p_off input_walk then
                       if 5 <? p_off (plus p d0) - p_off input_walk then mret (inr (plus p d0))
                       else
                         let* c := load input_walk in
                         if beq c "."%byte then mret (inr input_walk) else mret (inl input_walk)
                     else mret (inr (plus p d0))) (plus p (length before)) h = done (q, h) /\
    cstr_at h q (second_ext before at_ dist ext).
Proof.
  intros H He.
  match goal with |- context [rounds _ ?body] => set (B := body) end.
  assert (Body : forall n, B (plus p n) =
    let w := mkPtr (p_block p) (p_off p + n - 1) in
    if p_off p <? p_off w then
      if 5 <? p_off p + d0 - p_off w then mret (inr (plus p d0))
      else let* c := load w in if beq c "."%byte then mret (inr w) else mret (inl w)
    else mret (inr (plus p d0))) by reflexivity.
  clearbody B.
  induction before as [|c before IH]; intros at_ dist fuel E D F; (destruct fuel as [|fuel]; [lia|]); cbn in F; rewrite rounds_S, Body; cbv zeta;
    cbn [p_block p_off length second_ext].
  - destruct (Nat.ltb_spec (p_off p) (p_off p + 0 - 1)) as [X|X]; [lia|]. rewrite mbind_ret. exists (plus p d0). auto.
  - replace (p_off p + S (length before) - 1) with (p_off p + length before) by lia. fold (plus p (length before)).
    destruct (Nat.ltb_spec (p_off p) (p_off p + length before)) as [X|X].
    2:{ assert (before = []) as -> by (destruct before; cbn in X; [reflexivity|lia]). rewrite mbind_ret. exists (plus p d0). auto. }
    destruct before as [|c2 before]; [cbn in X; lia|]. set (bf := c2 :: before) in *.
    replace (p_off p + d0 - (p_off p + length bf)) with (S dist) by (cbn in D |- *; lia).
    destruct (5 <? S dist); [rewrite mbind_ret; exists (plus p d0); auto|].
    cbn [rev] in E. rewrite <- app_assoc in E. cbn [app] in E. rewrite E in H. apply cstr_skip in H. rewrite rev_length in H.
    destruct (cstr_cons _ _ _ _ H) as (Y & _ & _). rewrite mbind_assoc, (mbind_done _ _ _ _ _ Y).
    destruct (beq c ".") eqn:C.
    + rewrite mbind_ret. exists (plus p (length bf)). auto.
    + rewrite mbind_ret. cbv iota. apply IH; auto; [cbn in D |- *; lia|lia].
Qed.

Lemma nonul_firstn n s : nonul s -> nonul (firstn n s).
Proof. intros N I. apply N. revert I. revert n. induction s as [|c s IH]; intros [|n]; cbn; try tauto. intros [->|I]; auto. right. eapply IH; eauto. apply nonul_cons in N. apply N. Qed.

Lemma max_length_same (h : heap) p s m : cstr_at h p s -> fits s ->
  same h (c_clean_max_length (Some p) m h) (some (clean_max_length_says s m)).
Proof.
  intros H Ls. unfold c_clean_max_length, clean_max_length_says. cbv zeta. set (mx := (if (m <=? 0)%N then 256%N else m)).
  pose proof (cstr_at_nonul _ _ _ H) as Ns.
  rewrite (mbind_done _ _ _ _ _ (strlen_ok _ _ _ H)). destruct (N.leb_spec (strlen s) mx) as [L|L].
  { eapply strdup_step; [exact H|exact Ls| |apply same_gave_up]. intros Bd. left. split; [reflexivity|]. now apply leaves_last. }
  unfold fits in Ls. rewrite (size_t_small (mx + 1)) by lia. eapply malloc_step; [|apply same_gave_up]. intros Bd.
  set (h1 := h ++ [Some (repeat None (N.to_nat (mx + 1)))]). assert (H1 : cstr_at h1 p s) by now apply cstr_old.
  rewrite (mbind_done _ _ _ _ _ (read_ok _ _ _ H1)). unfold c_snprintf at 1.
  set (n := N.to_nat mx). replace (N.to_nat (mx + 1) - 1) with n by lia. set (out := firstn n s).
  assert (Lo : length out = n) by (unfold out; rewrite firstn_length; unfold strlen in L; lia).
  set (h2 := h ++ [Some (map Some out ++ [Some NUL])]).
  rewrite (mbind_done _ _ _ tt h2).
  2:{ rewrite (mbind_done _ _ h1 (mkPtr (length h) (0 + length (out ++ [NUL]))) h2); [reflexivity|].
      rewrite (write_over _ _ _ _ (repeat None (N.to_nat (mx + 1)))).
      - unfold h1, h2. rewrite set_last. do 4 f_equal. cbn [firstn app Nat.add]. rewrite map_app. cbn [map].
        rewrite skipn_all2; [now rewrite app_nil_r|]. rewrite repeat_length, app_length, Lo. cbn [length]. lia.
      - unfold h1. apply nth_last.
      - rewrite app_length, repeat_length, Lo. cbn [length]. lia. }
  assert (H2 : cstr_at h2 p s) by now apply cstr_old.
  assert (No : nonul out) by now apply nonul_firstn.
  assert (Out : leaves h (mkPtr (length h) 0) out h2).
  { apply leaves_last; auto. revert Bd. unfold bounded. rewrite !size_app, !size_one, repeat_length, app_length, map_length, Lo. cbn [length]. lia. }
  destruct (strrchr_ok "."%byte h2 p s H2 ltac:(discriminate)) as [R Rs]. rewrite (mbind_done _ _ _ _ _ R). clear R.
  destruct (strrchr s "."%byte) as [[before ext]|]; cbn [option_map]; [|left; split; [reflexivity|exact Out]].
  specialize (Rs before ext eq_refl).
  assert (He : cstr_at h2 (plus p (length before)) ext).
  { pose proof H2 as X. rewrite Rs in X. apply cstr_skip in X. now rewrite rev_length in X. }
  rewrite (mbind_done _ _ _ _ _ (strlen_ok _ _ _ He)). destruct (strlen ext =? 1)%N; [left; split; [reflexivity|exact Out]|].
  destruct (second_ext_ok h2 p s ext (length before) H2 He before ext 0 (S (heap_size h2)) Rs) as (q & E & Hq); [lia| |].
  { apply cstr_size in H2. rewrite Rs, app_length, rev_length in H2. lia. }
  match goal with |- same h (mbind ?m _ _) _ => rewrite (mbind_done m _ _ q h2 E) end. clear E. set (e := second_ext before ext 0 ext) in *.
  rewrite (mbind_done _ _ _ _ _ (strlen_ok _ _ _ Hq)). destruct (N.leb_spec mx (strlen e)) as [L2|L2].
  - rewrite (mbind_done _ _ _ _ _ (read_ok _ _ _ H2)), mbind_outside. unfold some. rewrite tbind_assoc. apply same_talk. intros [] _. rewrite tbind_done.
    unfold h2. rewrite (mbind_done _ _ _ _ _ (free_ok _ _ _ (nth_last _ _))), set_last.
    assert (H3 : cstr_at (h ++ [None]) p s) by now apply cstr_old.
    eapply strdup_step; [exact H3|exact Ls| |apply same_gave_up_later; eauto]. intros Bd2. left. split; [reflexivity|]. cbn [snd mret done quietly].
    exists 1, 0, []. rewrite app_length. cbn [length repeat app]. rewrite <- app_assoc in *. auto.
  - rewrite (mbind_done _ _ _ _ _ (read_ok _ _ _ Hq)). unfold c_snprintf.
    rewrite (size_t_small (strlen e + 1)) by lia.
    set (body := N.to_nat (mx - strlen e)).
    rewrite (firstn_all2 e) by (unfold strlen; lia).
    destruct (N.leb_spec (N.of_nat body + strlen e + 1) (mx + 1)) as [L3|L3]; [|unfold body in L3; lia].
    assert (Lb : body + length e = n) by (unfold body, strlen, n in *; lia).
    set (h3 := h ++ [Some (map Some (firstn body out ++ e) ++ [Some NUL])]).
    rewrite (mbind_done _ _ _ tt h3).
    2:{ unfold plus. cbn [p_block p_off Nat.add]. rewrite (mbind_done _ _ h2 (mkPtr (length h) (body + length (e ++ [NUL]))) h3); [reflexivity|].
        rewrite (write_over _ _ _ _ (map Some out ++ [Some NUL])).
        - unfold h2, h3. rewrite set_last. do 4 f_equal. rewrite firstn_app, map_length, Lo.
          replace (body - n) with 0 by lia. cbn [firstn]. rewrite app_nil_r, firstn_map, !map_app. cbn [map].
          rewrite skipn_all2; [now rewrite app_nil_r, app_assoc|]. rewrite !app_length, map_length, Lo. cbn [length]. lia.
        - unfold h2. apply nth_last.
        - rewrite !app_length, map_length, Lo. cbn [length]. lia. }
    left. split; [reflexivity|]. cbn [snd mret done quietly]. apply leaves_last.
    + apply nonul_app. split; [now apply nonul_firstn|exact (cstr_at_nonul _ _ _ Hq)].
    + revert Bd. unfold bounded. rewrite !size_app, !size_one, repeat_length, app_length, map_length, app_length, firstn_length, Lo. cbn [length]. lia.
Qed.

(** ** Filters and sequences *)

Lemma filter_same pf f h p s : cstr_at h p s -> fits s ->
  same h (c_filter_run pf f (Some p) h) (filter_run_says pf f (Some s)).
Proof.
  intros H L. unfold c_filter_run, filter_run_says. destruct (f_cleaner f).
  - now apply iso8859_1_same.
  - now apply lower_same.
  - now apply max_length_same.
  - now apply safe_same.
  - now apply uncgi_same.
  - now apply utf_8_same.
  - now apply wipeup_same.
  - left. split; reflexivity.
Qed.

(** A string in a block that nothing else points into: work of src/sequence.c:113. *)
Lemma leaves_cstr h q r h' : leaves h q r h' -> cstr_at h' q r.
Proof.
  intros (i & j & rest & -> & -> & N & F). apply (cstr_block _ _ _ rest); [|exact N].
  rewrite nth_error_app2 by lia. replace (length h + i - length h) with i by lia.
  rewrite nth_error_app2; rewrite repeat_length; [|lia]. now rewrite Nat.sub_diag.
Qed.

Lemma leaves_fits h q r h' : leaves h q r h' -> fits r.
Proof. intros L. apply (bounded_fits h' q); [|exact (leaves_cstr _ _ _ _ L)]. now destruct L as (i & j & rest & _ & _ & _ & B). Qed.

(** ... after it is freed there is nothing left *)
Lemma leaves_free h q r h' : leaves h q r h' ->
  exists n, length h' = length h + n /\ (forall k, free q (h' ++ k) = done (tt, h ++ repeat None n ++ k)) /\ heap_size h <= heap_size h'.
Proof.
  intros (i & j & rest & -> & -> & N & F). exists (i + 1 + j).
  splits; [rewrite !app_length; cbn [length]; rewrite !repeat_length; lia| |rewrite size_app; lia]. intros k.
  rewrite (free_ok _ _ (map Some r ++ Some NUL :: rest)).
  - do 2 f_equal. rewrite <- !app_assoc, set_app_r. f_equal.
    replace i with (length (repeat (@None (list cell)) i) + 0) at 2 by (rewrite repeat_length; lia).
    rewrite set_app_r. cbn [app set_block]. rewrite !repeat_app, <- !app_assoc. reflexivity.
  - rewrite <- app_assoc, nth_error_app2 by lia. replace (length h + i - length h) with i by lia.
    rewrite <- app_assoc, nth_error_app2; rewrite repeat_length; [|lia]. now rewrite Nat.sub_diag.
Qed.

(** What comes after. *)
Lemma same_then h h1 c m (k : option ptr -> mem (option ptr)) k' : (exists more, h1 = h ++ more) -> same h1 c m ->
  (forall q r h2, leaves h1 q r h2 -> same h (k (Some q) h2) (k' (Some r))) ->
  (forall n, bounded (h1 ++ repeat None n) -> same h (k None (h1 ++ repeat None n)) (k' None)) ->
  same h (tbind c (fun '(a, h2) => k a h2)) (tbind m k').
Proof.
  intros Ex [H|H] K N.
  - destruct c as [o [[[q|] h2]|e|x]], m as [o' [[r|]|e'|x']]; destruct H as [Ho H]; cbn [fst snd] in Ho, H; try contradiction; subst o'.
    + apply (same_talk h (o, Ok tt) (fun _ => k' (Some r)) (fun _ => k (Some q) h2)). intros _ _. now apply K.
    + destruct H as [[n ->] B]. apply (same_talk h (o, Ok tt) (fun _ => k' None) (fun _ => k None _)). intros _ _. now apply N.
    + subst e'. left. split; reflexivity.
    + subst x'. left. split; reflexivity.
  - right. apply (gave_up_later h) in H; [|exact Ex]. destruct H as (o & o' & message & h0 & n & R & -> & E). destruct m as [om rm]. cbn in E. subst om.
    destruct rm as [a|w|x]; [|now exists o, o', message, h0, n..].
    cbn [tbind]. destruct (k' a) as [o2 r2]. exists o, (o' ++ o2), message, h0, n. cbn [fst]. splits; auto. symmetry. apply app_assoc.
Qed.

Lemma run_filters_same pf fs : forall h w s h1, leaves h w s h1 ->
  same h (c_run_filters pf fs (Some w) h1) (run_filters_says pf fs (Some s)).
Proof.
  induction fs as [|f fs IH]; intros h w s h1 Lv; cbn [c_run_filters run_filters_says].
  - left. split; [reflexivity|exact Lv].
  - pose proof (filter_same pf f h1 w s (leaves_cstr _ _ _ _ Lv) (leaves_fits _ _ _ _ Lv)) as S. destruct (leaves_free _ _ _ _ Lv) as (n & Ln & Fr & Sz).
    unfold mbind at 1. apply (same_then h h1 _ _ _ _ ltac:(destruct Lv as (i0 & j0 & r0 & -> & _); eauto) S).
    + intros q r h2 (i & j & rest & -> & -> & Nr & B). rewrite (mbind_done _ _ _ _ _ (Fr _)). apply IH.
      exists (n + i), j, rest. splits; auto.
      * now rewrite repeat_app, <- !app_assoc.
      * f_equal. lia.
      * revert B. unfold bounded. rewrite !size_app, !size_nones. lia.
    + intros m B. rewrite (mbind_done _ _ _ _ _ (Fr _)).
      assert (E1 : c_run_filters pf fs None = mret None) by (destruct fs; reflexivity).
      assert (E2 : run_filters_says pf fs None = done None) by (destruct fs; reflexivity). rewrite E1, E2. left. split; [reflexivity|]. split.
      * exists (n + m). now rewrite repeat_app.
      * revert B. unfold bounded. rewrite !size_app, !size_nones. lia.
Qed.

Lemma sequence_same pf seq h p s : cstr_at h p s -> fits s ->
  same h (c_sequence_run pf seq (Some p) h) (sequence_run_says pf seq (Some s)).
Proof.
  intros H F. unfold c_sequence_run, sequence_run_says. destruct seq as [seq|]; [|left; split; reflexivity].
  eapply strdup_step; [exact H|exact F| |apply same_gave_up]. intros B. apply run_filters_same. apply leaves_last; auto. exact (cstr_at_nonul _ _ _ H).
Qed.

Lemma sequence_none pf seq h : bounded h -> same h (c_sequence_run pf seq None h) (sequence_run_says pf seq None).
Proof.
  intros B. left. destruct seq as [seq|]; split; try reflexivity. split; [|exact B]. exists 0. now rewrite app_nil_r.
Qed.

End proofs.
