(** * Proofs about src/clean_utf_8.c *)

From Verif Require Import Base BaseFacts Table TableSpec TableProofs BuiltinTables CleanString CleanUtf8
  CleanSpec Utf8Spec CleanStringProofs.

(** ** Bit tests as ranges *)

Definition contb (c : byte) : bool := ((0x80 <=? bN c) && (bN c <? 0xC0))%N.

Lemma contb_iff c : contb c = true <-> continuation c.
Proof. unfold contb, continuation. rewrite andb_true_iff, N.leb_le, N.ltb_lt. tauto. Qed.

Lemma is_cont c : is_utf_8_cont c = contb c.
Proof.
  apply eqb_prop. revert c. apply (byte_sweep (fun c => Bool.eqb (is_utf_8_cont c) (contb c))).
  vm_compute. reflexivity.
Qed.

Definition onat_eqb (a b : option nat) : bool :=
  match a, b with
  | Some x, Some y => Nat.eqb x y
  | None, None => true
  | _, _ => false
  end.

Lemma onat_eqb_eq a b : onat_eqb a b = true -> a = b.
Proof. destruct a, b; simpl; try easy. intros H. apply Nat.eqb_eq in H. now subst. Qed.

Lemma width_spec c : get_utf_8_width c = seq_width c.
Proof.
  apply onat_eqb_eq. revert c. apply (byte_sweep (fun c => onat_eqb (get_utf_8_width c) (seq_width c))).
  vm_compute. reflexivity.
Qed.

Lemma width_facts c w : seq_width c = Some w ->
  unpack_start c w = start_value c /\ (1 <= w <= 6)%nat /\
  (start_value c * 64 ^ N.of_nat (w - 1) + 64 ^ N.of_nat (w - 1) <= 2 ^ 31)%N /\ contb c = false.
Proof.
  assert (S : forall c, match seq_width c with
     | Some w => (unpack_start c w =? start_value c)%N && (1 <=? w)%nat && (w <=? 6)%nat &&
       (start_value c * 64 ^ N.of_nat (w - 1) + 64 ^ N.of_nat (w - 1) <=? 2 ^ 31)%N && negb (contb c)
     | None => true end = true).
  { apply byte_sweep. vm_compute. reflexivity. }
  specialize (S c). intros H. rewrite H in S.
  rewrite !andb_true_iff, N.eqb_eq, !Nat.leb_le, N.leb_le, negb_true_iff in S. tauto.
Qed.

Lemma unpack_cont_spec c : contb c = true -> unpack_cont c = (bN c - 0x80)%N /\ (bN c - 0x80 < 64)%N.
Proof.
  assert (S : forall c, (if contb c then (unpack_cont c =? bN c - 0x80)%N && (bN c - 0x80 <? 64)%N else true) = true).
  { apply byte_sweep. vm_compute. reflexivity. }
  specialize (S c). intros H. rewrite H in S. now rewrite andb_true_iff, N.eqb_eq, N.ltb_lt in S.
Qed.

(** ** The continuation loop *)

Definition add_cont (v : N) (b : byte) : N := (64 * v + (bN b - 0x80))%N.

Lemma cont_loop_spec n : forall v rest eaten,
  (v * 64 ^ N.of_nat n + 64 ^ N.of_nat n <= 2 ^ 31)%N ->
  match utf_8_cont_loop n v rest eaten with
  | inl (v', e', r') =>
      exists conts, rest = conts ++ r' /\ length conts = n /\ Forall continuation conts /\
        e' = rev eaten ++ conts /\ v' = fold_left add_cont conts v
  | inr r' =>
      exists conts, rest = conts ++ r' /\ (length conts < n)%nat /\ Forall continuation conts /\
        ~ starts_with continuation r'
  end.
Proof.
  induction n as [|n IH]; intros v rest eaten B; cbn [utf_8_cont_loop].
  - exists []. rewrite app_nil_r. auto.
  - destruct rest as [|c rest].
    + exists []. splits; auto; simpl; try lia.
    + rewrite is_cont. destruct (contb c) eqn:C.
      * pose proof (unpack_cont_spec c C) as [U1 U2].
        rewrite Nat2N.inj_succ, N.pow_succ_r' in B.
        assert (P : (0 < 64 ^ N.of_nat n)%N) by (apply N.neq_0_lt_0, N.pow_nonzero; lia).
        assert (E : ((v * 64 + unpack_cont c) mod 2 ^ 32 = add_cont v c)%N).
        { unfold add_cont. rewrite U1. change (2 ^ 31)%N with 2147483648%N in B.
          change (2 ^ 32)%N with 4294967296%N. rewrite N.mod_small; nia. }
        rewrite E. specialize (IH (add_cont v c) rest (c :: eaten)).
        assert (B' : (add_cont v c * 64 ^ N.of_nat n + 64 ^ N.of_nat n <= 2 ^ 31)%N).
        { unfold add_cont. nia. }
        specialize (IH B'). apply contb_iff in C.
        destruct (utf_8_cont_loop n (add_cont v c) rest (c :: eaten)) as [[[v' e'] r']|r'].
        -- destruct IH as (conts & -> & L & F & -> & ->). exists (c :: conts). simpl.
           splits; auto. now rewrite <- app_assoc.
        -- destruct IH as (conts & -> & L & F & NS). exists (c :: conts). simpl. splits; auto. lia.
      * exists []. splits; auto; simpl; [lia|]. rewrite <- contb_iff. now rewrite C.
Qed.

Lemma seq_value_fold c conts : seq_value c conts = fold_left add_cont conts (start_value c).
Proof. reflexivity. Qed.

Definition ttext (t : table) : N -> str -> str := table_text (table_get t) (t_default t).

Lemma replacement_text t v u :
  match utf_8_replacement t v with Some r => r | None => u end = ttext t v u.
Proof.
  unfold utf_8_replacement, ttext, table_text. destruct (table_get t v); [reflexivity|].
  destruct (v =? 0)%N; [reflexivity|]. change UNICODE_MAX_VALUE with 0x10FFFF%N.
  now destruct (0x10FFFF <? v)%N.
Qed.

(** The bytes written depend only on the name; the fuel is enough. *)
Lemma utf_8_loop_fuel t cap : forall fuel s, (length s <= fuel)%nat ->
  exists o, utf8_read (ttext t) s o /\ forall acc, utf_8_loop fuel cap t s acc = wrs cap acc o.
Proof.
  induction fuel as [|fuel IH]; intros [|c s] L; simpl in L; try lia.
  - exists []. split; [constructor | reflexivity].
  - exists []. split; [constructor | reflexivity].
  - cbn [utf_8_loop]. rewrite width_spec. destruct (seq_width c) as [w|] eqn:W.
    + pose proof (width_facts c w W) as (U & Bw & Bv & _). rewrite U.
      pose proof (cont_loop_spec (w - 1) (start_value c) s [] Bv) as C.
      destruct (utf_8_cont_loop (w - 1) (start_value c) s []) as [[[v e] r]|r].
      * destruct C as (conts & -> & Lc & Fc & -> & ->). cbn [rev app].
        rewrite <- (seq_value_fold c conts).
        assert (Sq : sequence (c :: conts) (seq_value c conts)) by (econstructor; eauto).
        destruct (IH r) as (o & R & E). { rewrite app_length in L. lia. }
        exists (ttext t (seq_value c conts) (c :: conts) ++ o). split.
        -- apply (ur_seq (ttext t) (c :: conts)); assumption.
        -- intros acc. rewrite wrs_app, <- replacement_text.
           destruct (utf_8_replacement t (seq_value c conts)) as [x|];
             match goal with |- bind ?w _ = _ => destruct w end; cbn [bind]; auto.
      * destruct C as (conts & -> & Lc & Fc & NS).
        destruct (IH r) as (o & R & E). { rewrite app_length in L. lia. }
        exists ("_"%byte :: o). split; [eapply ur_cut; eauto|].
        intros acc. cbn [wrs]. change invalid_replacement with "_"%byte.
        destruct (wr cap acc "_"); cbn [bind]; auto.
    + destruct (IH s) as (o & R & E); [lia|].
      exists ("_"%byte :: o). split; [now apply ur_bad|].
      intros acc. cbn [wrs]. change invalid_replacement with "_"%byte.
      destruct (wr cap acc "_"); cbn [bind]; auto.
Qed.

Theorem clean_utf_8_eq s t :
  exists o, utf8_read (ttext t) s o /\ clean_utf_8 s (Some t) = store (table_cap t s) o.
Proof.
  destruct (utf_8_loop_fuel t (table_cap t s) (length s) s (le_n _)) as (o & R & E).
  exists o. split; [assumption|]. unfold clean_utf_8. cbv zeta. rewrite E. apply write_all'.
Qed.

(** ** The reading is unique *)

Lemma split_conts a b c d :
  a ++ b = c ++ d -> Forall continuation a -> Forall continuation c ->
  (length a = length c \/
   (~ starts_with continuation b /\ ~ starts_with continuation d)) -> a = c /\ b = d.
Proof.
  intros E Fa Fc H. revert c E Fc H. induction Fa as [|x a Hx Fa IH]; intros [|y c] E Fc H; simpl in *.
  - auto.
  - destruct H as [H|[H _]]; [lia|]. subst b. exfalso. apply H. simpl. now inversion Fc.
  - destruct H as [H|[_ H]]; [lia|]. subst d. exfalso. apply H. simpl. assumption.
  - injection E as -> E. inversion Fc; subst. destruct (IH c E) as [-> ->]; auto.
    destruct H as [H|H]; [left; lia | now right].
Qed.

(** A shorter broken sequence cannot also be read as a complete one. *)
Lemma cut_vs_complete a b c d :
  a ++ b = c ++ d -> Forall continuation a -> Forall continuation c ->
  (length a < length c)%nat -> starts_with continuation b.
Proof.
  intros E Fa Fc L. revert c E Fc L. induction Fa as [|x a Hx Fa IH]; intros [|y c] E Fc L; simpl in *; try lia.
  - subst b. simpl. now inversion Fc.
  - injection E as -> E. inversion Fc; subst. eapply IH; eauto. lia.
Qed.

Lemma utf8_read_fun text s o1 o2 : utf8_read text s o1 -> utf8_read text s o2 -> o1 = o2.
Proof.
  intros H1. revert o2. induction H1 as [|u cp s o Q H IH|c conts w s o W L F NS H IH|c s o W H IH]; intros o2 H2.
  - remember (@nil byte) as z eqn:Ez in H2. destruct H2 as [|u cp s o Q H| |]; try discriminate; [reflexivity|].
    destruct Q; discriminate.
  - remember (u ++ s) as z eqn:Ez in H2.
    destruct H2 as [|u' cp' s' o' Q' H'|c' conts' w' s' o' W' L' F' NS' H'|c' s' o' W' H'].
    + destruct Q; discriminate.
    + destruct Q as [c conts w W Lc Fc], Q' as [c' conts' w' W' Lc' Fc']. simpl in Ez. injection Ez as -> Ez.
      rewrite W in W'. injection W' as <-.
      apply split_conts in Ez; auto; [|left; lia]. destruct Ez as [-> ->]. f_equal. now apply IH.
    + destruct Q as [c conts w W Lc Fc]. simpl in Ez. injection Ez as -> Ez.
      rewrite W in W'. injection W' as <-. exfalso. apply NS'. eapply cut_vs_complete; eauto. lia.
    + destruct Q as [c conts w W Lc Fc]. simpl in Ez. injection Ez as -> Ez. congruence.
  - remember (c :: conts ++ s) as z eqn:Ez in H2.
    destruct H2 as [|u' cp' s' o' Q' H'|c' conts' w' s' o' W' L' F' NS' H'|c' s' o' W' H'].
    + discriminate.
    + destruct Q' as [c' conts' w' W' Lc' Fc']. simpl in Ez. injection Ez as -> Ez.
      rewrite W in W'. injection W' as <-. exfalso. apply NS. symmetry in Ez.
      eapply cut_vs_complete; eauto. lia.
    + injection Ez as -> Ez. apply split_conts in Ez; auto. destruct Ez as [-> ->]. f_equal. now apply IH.
    + injection Ez as -> _. congruence.
  - remember (c :: s) as z eqn:Ez in H2.
    destruct H2 as [|u' cp' s' o' Q' H'|c' conts' w' s' o' W' L' F' NS' H'|c' s' o' W' H'].
    + discriminate.
    + destruct Q' as [c' conts' w' W' Lc' Fc']. simpl in Ez. injection Ez as -> Ez. congruence.
    + injection Ez as -> _. congruence.
    + injection Ez as -> ->. f_equal. now apply IH.
Qed.

Lemma utf8_read_total t s : exists o, utf8_read (ttext t) s o.
Proof. destruct (clean_utf_8_eq s t) as (o & R & _). eauto. Qed.

Lemma utf8_read_ext f g s o :
  (forall cp u, sequence u cp -> f cp u = g cp u) -> utf8_read f s o -> utf8_read g s o.
Proof.
  intros E. induction 1; try (econstructor; eauto; fail).
  rewrite (E cp u) by assumption. now constructor.
Qed.

(** ** The built-in table *)

Lemma unicode_rows_small :
  forallb (fun r => (r_key r <? 0x2061)%N) (t_rows load_builtin_unicode_table) = true.
Proof. vm_compute. reflexivity. Qed.

Definition ostr_eqb (a b : option str) : bool :=
  match a, b with Some x, Some y => str_eqb x y | None, None => true | _, _ => false end.

Lemma ostr_eqb_eq a b : ostr_eqb a b = true -> a = b.
Proof. destruct a, b; simpl; try easy. intros H. apply str_eqb_eq in H. now subst. Qed.

Fixpoint below (n : nat) (k : N) (p : N -> bool) : bool :=
  match n with
  | O => true
  | S m => p k && below m (k + 1) p
  end.

Lemma below_spec n p : forall k, below n k p = true -> forall x, (k <= x < k + N.of_nat n)%N -> p x = true.
Proof.
  induction n as [|n IH]; intros k H x L; [lia|].
  simpl in H. apply andb_true_iff in H. destruct H as [H1 H2].
  destruct (N.eq_dec x k) as [->|]; [assumption|]. apply (IH (k + 1)%N); [assumption | lia].
Qed.

Lemma builtin_unicode_get k : table_get load_builtin_unicode_table k = unicode_spec k.
Proof.
  destruct (N.ltb_spec k 0x2061) as [L|L].
  - apply ostr_eqb_eq.
    apply (below_spec (N.to_nat 0x2061) (fun k => ostr_eqb (table_get load_builtin_unicode_table k) (unicode_spec k)) 0).
    + vm_compute. reflexivity.
    + lia.
  - rewrite table_get_outside.
    + unfold unicode_spec.
      repeat match goal with
      | |- context [(?a =? ?b)%N] => destruct (N.eqb_spec a b); [lia|]
      | |- context [(?a <? ?b)%N] => destruct (N.ltb_spec a b); [lia|]
      | |- context [(?a <=? ?b)%N] => destruct (N.leb_spec a b); try lia; cbn [andb]
      end; reflexivity.
    + apply wf_builtin_unicode.
    + eapply forallb_impl; [|apply unicode_rows_small].
      intros r H. apply N.ltb_lt in H. apply negb_true_iff, N.eqb_neq. lia.
Qed.

Lemma builtin_unicode_facts :
  t_default load_builtin_unicode_table = None /\ t_maxdata load_builtin_unicode_table = 1%nat.
Proof. vm_compute. auto. Qed.

Lemma builtin_unicode_text cp u : ttext load_builtin_unicode_table cp u = unicode_text cp u.
Proof.
  unfold ttext, unicode_text, table_text. rewrite builtin_unicode_get.
  now rewrite (proj1 builtin_unicode_facts).
Qed.

Local Opaque load_builtin_unicode_table.

Theorem builtin_unicode_eq s :
  in_memory s ->
  exists o, utf8_read unicode_text s o /\
    clean_utf_8 s (Some load_builtin_unicode_table) = store (strlen s + 1) o.
Proof.
  intros M. destruct (clean_utf_8_eq s load_builtin_unicode_table) as (o & R & E).
  exists o. split.
  - eapply utf8_read_ext; [|exact R]. intros cp u _. apply builtin_unicode_text.
  - rewrite E. f_equal. rewrite table_cap_fits.
    + rewrite (proj2 builtin_unicode_facts). lia.
    + eapply fits_of; [apply builtin_unicode_facts | lia | assumption].
Qed.

(** ** Lengths *)

Lemma sequence_length u cp : sequence u cp -> (1 <= length u)%nat.
Proof. intros [c conts w _ _ _]. simpl. lia. Qed.

Lemma unicode_spec_short cp r : unicode_spec cp = Some r -> (length r <= 1)%nat.
Proof.
  unfold unicode_spec. intros H.
  repeat match type of H with
  | (if ?b then _ else _) = _ => destruct b
  end; try discriminate; injection H as <-; simpl; lia.
Qed.

Lemma unicode_text_length cp u : sequence u cp -> ~ (cp = 0%N) -> (length (unicode_text cp u) <= length u)%nat.
Proof.
  intros Q Z. pose proof (sequence_length u cp Q). unfold unicode_text, table_text.
  destruct (unicode_spec cp) eqn:E.
  - apply unicode_spec_short in E. lia.
  - destruct (N.eqb_spec cp 0); [contradiction|]. destruct (0x10FFFF <? cp)%N; simpl; lia.
Qed.

Lemma sequence_nul u s : sequence u 0 -> nonul (u ++ s) -> (1 < length u)%nat.
Proof.
  intros Q N. remember 0%N as z eqn:Ez. destruct Q as [c conts w W L F].
  destruct conts as [|d conts]; simpl; [|lia].
  exfalso. simpl in L. pose proof (width_facts c w W) as (U & Bw & _). 
  assert (w = 1)%nat by lia. subst w. cbn in Ez. unfold unpack_start in U. rewrite Ez in U.
  apply N. left. apply bN_inj. rewrite U. reflexivity.
Qed.

Lemma infix_tail u a s : infix u s -> infix u (a ++ s).
Proof. intros (x & y & ->). exists (a ++ x), y. now rewrite app_assoc. Qed.

Lemma unicode_no_growth s o :
  utf8_read unicode_text s o -> nonul s -> (forall u, infix u s -> ~ overlong_nul u) ->
  (length o <= length s)%nat.
Proof.
  induction 1 as [|u cp s o Q H IH|c conts w s o W L F NS H IH|c s o W H IH]; intros N NI; simpl in *; try lia.
  - rewrite !app_length.
    assert (cp <> 0%N).
    { intros ->. apply (NI u); [exists [], s; reflexivity|]. split; [assumption|]. eapply sequence_nul; eauto. }
    pose proof (unicode_text_length cp u Q H0). apply nonul_app in N. destruct N as [_ N].
    specialize (IH N). assert (length o <= length s)%nat; [|lia].
    apply IH. intros v I. apply NI. now apply infix_tail.
  - rewrite app_length.
    assert (length o <= length s)%nat; [|lia]. apply IH.
    + intros I. apply N. right. apply in_app_iff. now right.
    + intros v I. apply NI. now apply (infix_tail v (c :: conts)).
  - apply le_n_S. apply IH.
    + intros I. apply N. now right.
    + intros v I. apply NI. now apply (infix_tail v [c]).
Qed.

(** ** Idempotence *)

Lemma read_seq_app text s1 o1 s2 o2 :
  (exists us, s1 = concat us /\ Forall (fun u => exists cp, sequence u cp) us) ->
  utf8_read text s1 o1 -> utf8_read text s2 o2 -> utf8_read text (s1 ++ s2) (o1 ++ o2).
Proof.
  intros (us & -> & F) R1 R2. revert o1 R1. induction F as [|u us [cp Q] F IH]; intros o1 R1; simpl in *.
  - assert (o1 = []) as -> by (eapply utf8_read_fun; [exact R1 | constructor]). assumption.
  - rewrite <- app_assoc. remember (u ++ concat us) as z eqn:Ez.
    assert (exists o', utf8_read text (concat us) o' /\ o1 = text cp u ++ o') as (o' & R' & ->).
    { destruct R1 as [|u' cp' s' o' Q' H'|c' conts' w' s' o' W' L' F' NS' H'|c' s' o' W' H'].
      - destruct Q; discriminate.
      - destruct Q as [c conts w W Lc Fc], Q' as [c' conts' w' W' Lc' Fc']. simpl in Ez. injection Ez as -> Ez.
        rewrite W in W'. injection W' as <-.
        apply split_conts in Ez; auto; [|left; lia]. destruct Ez as [-> ->]. eauto.
      - destruct Q as [c conts w W Lc Fc]. simpl in Ez. injection Ez as -> Ez.
        rewrite W in W'. injection W' as <-. exfalso. apply NS'. eapply cut_vs_complete; eauto. lia.
      - destruct Q as [c conts w W Lc Fc]. simpl in Ez. injection Ez as -> Ez. congruence. }
    rewrite <- app_assoc. apply ur_seq; auto.
Qed.

Lemma ascii_sequence c : (bN c < 128)%N -> sequence [c] (bN c).
Proof.
  intros L.
  assert (W : seq_width c = Some 1%nat).
  { unfold seq_width. apply N.ltb_lt in L. now rewrite L. }
  replace (bN c) with (seq_value c []).
  - econstructor; eauto; constructor.
  - unfold seq_value, start_value. simpl. apply N.ltb_lt in L. now rewrite L.
Qed.

Lemma unicode_spec_ascii cp r : unicode_spec cp = Some r ->
  (r = [] \/ exists c, r = [c] /\ (32 <= bN c < 127)%N).
Proof.
  unfold unicode_spec. intros H.
  repeat match type of H with
  | (if (?a <? ?b)%N then _ else _) = _ => destruct (N.ltb_spec a b)
  | (if (?a =? ?b)%N then _ else _) = _ => destruct (N.eqb_spec a b)
  | (if ?b then _ else _) = _ => destruct b
  end; try discriminate; injection H as <-; auto; right;
  (eexists; split; [reflexivity|]; try (vm_compute; intuition discriminate)).
  rewrite bN_Nb; lia.
Qed.

Lemma printable_fixed c : (32 <= bN c < 127)%N -> unicode_text (bN c) [c] = [c].
Proof.
  intros L. unfold unicode_text, table_text, unicode_spec.
  destruct (N.eqb_spec (bN c) 0); [lia|]. destruct (N.ltb_spec (bN c) 0x20); [lia|].
  destruct (N.ltb_spec (bN c) 0x7F); [|lia]. now rewrite Nb_bN.
Qed.

(** Text that the filter maps to itself, in complete sequences. *)
Definition settled (x : str) : Prop :=
  well_formed_units x /\ utf8_read unicode_text x x.

Lemma settled_nil : settled [].
Proof. split; [exists []; auto | constructor]. Qed.

Lemma settled_app a b : settled a -> settled b -> settled (a ++ b).
Proof.
  intros [Ua Ra] [Ub Rb]. split.
  - destruct Ua as (x & -> & Fx), Ub as (y & -> & Fy). exists (x ++ y). split.
    + now rewrite concat_app.
    + now apply Forall_app.
  - now apply read_seq_app.
Qed.

Lemma settled_seq u cp : sequence u cp -> unicode_text cp u = u -> settled u.
Proof.
  intros Q E. split.
  - exists [u]. simpl. rewrite app_nil_r. split; [reflexivity|]. constructor; eauto.
  - rewrite <- (app_nil_r u) at 1. rewrite <- E at 2. rewrite <- (app_nil_r (unicode_text cp u)).
    apply ur_seq; [assumption | constructor].
Qed.

Lemma settled_printable c : (32 <= bN c < 127)%N -> settled [c].
Proof.
  intros L. apply (settled_seq [c] (bN c)); [apply ascii_sequence; lia | now apply printable_fixed].
Qed.

Lemma settled_printables s : Forall (fun c => (32 <= bN c < 127)%N) s -> settled s.
Proof.
  induction 1 as [|c s H _ IH]; [apply settled_nil|].
  change (c :: s) with ([c] ++ s). apply settled_app; auto using settled_printable.
Qed.

Lemma settled_text cp u : sequence u cp -> settled (unicode_text cp u).
Proof.
  intros Q. destruct (unicode_spec cp) as [r|] eqn:E.
  - replace (unicode_text cp u) with r by (unfold unicode_text, table_text; now rewrite E).
    apply unicode_spec_ascii in E. destruct E as [->|(c & -> & L)].
    + apply settled_nil.
    + now apply settled_printable.
  - destruct (N.eqb_spec cp 0) as [Z|Z]; [|destruct (N.ltb_spec 0x10FFFF cp) as [G|G]].
    + replace (unicode_text cp u) with (bs "_hidden_null_").
      * apply settled_printables. vm_compute. repeat constructor; intros H; discriminate.
      * unfold unicode_text, table_text. rewrite E. apply N.eqb_eq in Z. now rewrite Z.
    + replace (unicode_text cp u) with (bs "_").
      * apply settled_printables. vm_compute. repeat constructor; intros H; discriminate.
      * unfold unicode_text, table_text. rewrite E. apply N.eqb_neq in Z. rewrite Z.
        apply N.ltb_lt in G. now rewrite G.
    + assert (T : unicode_text cp u = u).
      { unfold unicode_text, table_text. rewrite E. apply N.eqb_neq in Z. rewrite Z.
        apply N.ltb_ge in G. now rewrite G. }
      rewrite T. now apply (settled_seq u cp).
Qed.

Lemma settled_output s o : utf8_read unicode_text s o -> settled o.
Proof.
  assert (U : settled (bs "_")) by (apply settled_printable; vm_compute; intuition discriminate).
  induction 1 as [|u cp s o Q H IH|c conts w s o W L F NS H IH|c s o W H IH].
  - apply settled_nil.
  - apply settled_app; auto using settled_text.
  - now apply (settled_app (bs "_") o).
  - now apply (settled_app (bs "_") o).
Qed.

(** NUL never comes out. *)
Lemma continuation_not_nul c : continuation c -> c <> NUL.
Proof. unfold continuation. intros H ->. vm_compute in H. destruct H as [H _]. now apply H. Qed.

Lemma unicode_text_nonul cp u : sequence u cp -> nonul u -> nonul (unicode_text cp u).
Proof.
  intros Q N. unfold unicode_text, table_text. destruct (unicode_spec cp) eqn:E.
  - apply unicode_spec_ascii in E. destruct E as [->|(c & -> & L)]; [apply nonul_nil|].
    apply nonul_cons. split; [|apply nonul_nil]. intros ->. vm_compute in L. destruct L as [L _]. now apply L.
  - destruct (cp =? 0)%N; [|destruct (0x10FFFF <? cp)%N].
    + apply nonul_iff. vm_compute. reflexivity.
    + apply nonul_iff. vm_compute. reflexivity.
    + assumption.
Qed.

Lemma unicode_read_nonul s o : utf8_read unicode_text s o -> nonul s -> nonul o.
Proof.
  assert (U : "_"%byte <> NUL) by discriminate.
  induction 1 as [|u cp s o Q H IH|c conts w s o W L F NS H IH|c s o W H IH]; intros N.
  - apply nonul_nil.
  - apply nonul_app in N. destruct N. apply nonul_app. split; [now apply unicode_text_nonul | auto].
  - apply nonul_cons in N. destruct N as [_ N]. apply nonul_app in N. destruct N.
    apply nonul_cons. auto.
  - apply nonul_cons in N. destruct N as [_ N]. apply nonul_cons. auto.
Qed.

(** ** Valid UTF-8 *)

Lemma encode_sequence cp : (cp < 2 ^ 21)%N -> sequence (encode cp) cp.
Proof.
  change (2 ^ 21)%N with 2097152%N. intros B. unfold encode.
  assert (CT : forall x, (x < 64)%N -> continuation (Nb (0x80 + x)) /\ (bN (Nb (0x80 + x)) - 0x80 = x)%N).
  { intros x L. unfold continuation. rewrite bN_Nb by lia. lia. }
  destruct (N.ltb_spec cp 0x80) as [L1|L1]; [|destruct (N.ltb_spec cp 0x800) as [L2|L2];
    [|destruct (N.ltb_spec cp 0x10000) as [L3|L3]]].
  - rewrite <- (bN_Nb cp) at 2 by lia. apply ascii_sequence. rewrite bN_Nb; lia.
  - assert (Q : (cp / 64 < 32)%N) by (apply N.div_lt_upper_bound; lia).
    assert (R : (cp mod 64 < 64)%N) by (apply N.mod_lt; lia).
    pose proof (N.div_mod cp 64 ltac:(lia)) as DM.
    destruct (CT _ R) as [C1 V1].
    assert (Hb : bN (Nb (0xC0 + cp / 64)) = (0xC0 + cp / 64)%N) by (apply bN_Nb; lia).
    assert (W : seq_width (Nb (0xC0 + cp / 64)) = Some 2%nat).
    { unfold seq_width. rewrite Hb.
      repeat match goal with |- context [(?a <? ?b)%N] => destruct (N.ltb_spec a b); try lia end. reflexivity. }
    replace cp with (seq_value (Nb (0xC0 + cp / 64)) [Nb (0x80 + cp mod 64)]) at 3.
    + econstructor; [exact W | reflexivity | repeat (apply Forall_cons; [assumption|]); apply Forall_nil].
    + unfold seq_value, start_value. cbn [fold_left]. rewrite Hb, V1.
      repeat match goal with |- context [(?a <? ?b)%N] => destruct (N.ltb_spec a b); try lia end.
  - assert (Q : (cp / 4096 < 16)%N) by (apply N.div_lt_upper_bound; lia).
    assert (R : (cp mod 64 < 64)%N) by (apply N.mod_lt; lia).
    assert (R2 : (cp / 64 mod 64 < 64)%N) by (apply N.mod_lt; lia).
    pose proof (N.div_mod cp 64 ltac:(lia)) as DM.
    pose proof (N.div_mod (cp / 64) 64 ltac:(lia)) as DM2.
    rewrite N.div_div in DM2 by lia. change (64 * 64)%N with 4096%N in DM2.
    destruct (CT _ R) as [C1 V1]. destruct (CT _ R2) as [C2 V2].
    assert (Hb : bN (Nb (0xE0 + cp / 4096)) = (0xE0 + cp / 4096)%N) by (apply bN_Nb; lia).
    assert (W : seq_width (Nb (0xE0 + cp / 4096)) = Some 3%nat).
    { unfold seq_width. rewrite Hb.
      repeat match goal with |- context [(?a <? ?b)%N] => destruct (N.ltb_spec a b); try lia end. reflexivity. }
    replace cp with (seq_value (Nb (0xE0 + cp / 4096)) [Nb (0x80 + cp / 64 mod 64); Nb (0x80 + cp mod 64)]) at 4.
    + econstructor; [exact W | reflexivity | repeat (apply Forall_cons; [assumption|]); apply Forall_nil].
    + unfold seq_value, start_value. cbn [fold_left]. rewrite Hb, V1, V2.
      repeat match goal with |- context [(?a <? ?b)%N] => destruct (N.ltb_spec a b); try lia end.
  - assert (Q : (cp / 262144 < 8)%N) by (apply N.div_lt_upper_bound; lia).
    assert (R : (cp mod 64 < 64)%N) by (apply N.mod_lt; lia).
    assert (R2 : (cp / 64 mod 64 < 64)%N) by (apply N.mod_lt; lia).
    assert (R3 : (cp / 4096 mod 64 < 64)%N) by (apply N.mod_lt; lia).
    pose proof (N.div_mod cp 64 ltac:(lia)) as DM.
    pose proof (N.div_mod (cp / 64) 64 ltac:(lia)) as DM2.
    pose proof (N.div_mod (cp / 4096) 64 ltac:(lia)) as DM3.
    rewrite N.div_div in DM2 by lia. change (64 * 64)%N with 4096%N in DM2.
    rewrite N.div_div in DM3 by lia. change (4096 * 64)%N with 262144%N in DM3.
    destruct (CT _ R) as [C1 V1]. destruct (CT _ R2) as [C2 V2]. destruct (CT _ R3) as [C3 V3].
    assert (Hb : bN (Nb (0xF0 + cp / 262144)) = (0xF0 + cp / 262144)%N) by (apply bN_Nb; lia).
    assert (W : seq_width (Nb (0xF0 + cp / 262144)) = Some 4%nat).
    { unfold seq_width. rewrite Hb.
      repeat match goal with |- context [(?a <? ?b)%N] => destruct (N.ltb_spec a b); try lia end. reflexivity. }
    replace cp with (seq_value (Nb (0xF0 + cp / 262144))
      [Nb (0x80 + cp / 4096 mod 64); Nb (0x80 + cp / 64 mod 64); Nb (0x80 + cp mod 64)]) at 5.
    + econstructor; [exact W | reflexivity | repeat (apply Forall_cons; [assumption|]); apply Forall_nil].
    + unfold seq_value, start_value. cbn [fold_left]. rewrite Hb, V1, V2, V3.
      repeat match goal with |- context [(?a <? ?b)%N] => destruct (N.ltb_spec a b); try lia end.
Qed.

Lemma scalar_bound cp : scalar cp -> (cp < 2 ^ 21)%N.
Proof. change (2 ^ 21)%N with 2097152%N. unfold scalar. lia. Qed.


Lemma unicode_text_untouched cp :
  (0 < cp)%N -> scalar cp -> untouched cp -> unicode_text cp (encode cp) = encode cp.
Proof.
  intros P S [U|U]; unfold unicode_text, table_text; rewrite U; [|reflexivity].
  destruct (N.eqb_spec cp 0); [lia|]. destruct (N.ltb_spec 0x10FFFF cp); [|reflexivity].
  unfold scalar in S. lia.
Qed.

Lemma read_clean_text cps :
  Forall (fun cp => (0 < cp)%N /\ scalar cp /\ untouched cp) cps ->
  utf8_read unicode_text (flat_map encode cps) (flat_map encode cps).
Proof.
  induction 1 as [|cp cps (P & S & U) _ IH]; [constructor|].
  simpl. rewrite <- (unicode_text_untouched cp) at 2 by assumption.
  apply ur_seq; [|assumption]. apply encode_sequence. now apply scalar_bound.
Qed.

(** ** Summaries *)

Theorem clean_utf_8_exact s t :
  fits t s ->
  exists o, utf8_read (table_text (table_get t) (t_default t)) s o /\
    clean_utf_8 s (Some t) =
      if (strlen o <=? strlen s * N.of_nat (t_maxdata t))%N then Ok (cstr o) else UB BufferOverflow.
Proof.
  intros F. destruct (clean_utf_8_eq s t) as (o & R & E). exists o. split; [exact R|].
  rewrite E, (table_cap_fits t s F). unfold store, strlen.
  destruct (N.ltb_spec (N.of_nat (length o)) (N.of_nat (length s) * N.of_nat (t_maxdata t) + 1)),
    (N.leb_spec (N.of_nat (length o)) (N.of_nat (length s) * N.of_nat (t_maxdata t))); try reflexivity; lia.
Qed.

Theorem builtin_unicode_exact s :
  nonul s -> in_memory s ->
  exists o, utf8_read unicode_text s o /\
    clean_utf_8 s (Some load_builtin_unicode_table) =
      (if (strlen o <=? strlen s)%N then Ok o else UB BufferOverflow) /\
    ((forall u, infix u s -> ~ overlong_nul u) -> (strlen o <= strlen s)%N).
Proof.
  intros N M. destruct (builtin_unicode_eq s M) as (o & R & E). exists o. splits; auto.
  - rewrite E. unfold store, strlen.
    rewrite (cstr_nonul o) by (eapply unicode_read_nonul; eauto).
    destruct (N.ltb_spec (N.of_nat (length o)) (N.of_nat (length s) + 1)),
      (N.leb_spec (N.of_nat (length o)) (N.of_nat (length s))); try reflexivity; lia.
  - intros I. pose proof (unicode_no_growth s o R N I). unfold strlen. lia.
Qed.

Theorem builtin_unicode_safe s :
  nonul s -> in_memory s -> (forall u, infix u s -> ~ overlong_nul u) ->
  exists o, clean_utf_8 s (Some load_builtin_unicode_table) = Ok o.
Proof.
  intros N M I. destruct (builtin_unicode_exact s N M) as (o & _ & E & H).
  specialize (H I). apply N.leb_le in H. rewrite H in E. eauto.
Qed.

(** An overlong NUL is one of five byte sequences. *)
Lemma overlong_nul_iff u :
  overlong_nul u <->
  In u [[xc0; x80]; [xe0; x80; x80]; [xf0; x80; x80; x80]; [xf8; x80; x80; x80; x80];
        [xfc; x80; x80; x80; x80; x80]].
Proof.
  assert (Zero : forall conts v, Forall continuation conts -> fold_left add_cont conts v = 0%N ->
            v = 0%N /\ conts = repeat x80 (length conts)).
  { induction conts as [|c conts IH]; intros v F E; simpl in *; [auto|].
    inversion F; subst. destruct (IH _ H2 E) as [Z ->]. unfold add_cont in Z. unfold continuation in H1.
    rewrite repeat_length. split; [lia|]. f_equal. apply bN_inj. change (bN x80) with 128%N. lia. }
  split.
  - intros [Q L]. remember 0%N as z eqn:Ez in Q. destruct Q as [c conts w W Lc F].
    rewrite seq_value_fold in Ez. destruct (Zero conts _ F Ez) as [Zs Ec].
    assert (S : forall c, match seq_width c with
       | Some w => if (start_value c =? 0)%N then
           beq c x00 || existsb (fun p => beq c (fst p) && Nat.eqb w (snd p)) [(xc0,2);(xe0,3);(xf0,4);(xf8,5);(xfc,6)]
           else true
       | None => true end = true).
    { apply byte_sweep. vm_compute. reflexivity. }
    specialize (S c). rewrite W in S. apply N.eqb_eq in Zs. rewrite Zs in S.
    apply orb_true_iff in S. destruct S as [S|S].
    + exfalso. apply beq_eq in S. subst c. vm_compute in W. injection W as <-. simpl in *. lia.
    + apply existsb_exists in S. destruct S as ([b n] & I & E). simpl in E.
      apply andb_true_iff in E. destruct E as [E1 E2]. apply beq_eq in E1. apply Nat.eqb_eq in E2. subst c w.
      rewrite Ec, Lc.
      simpl in I. repeat (destruct I as [I|I]; [injection I as <- <-; simpl; tauto|]). easy.
  - assert (C80 : continuation x80) by (unfold continuation; vm_compute; intuition discriminate).
    intros I. simpl in I.
    repeat (destruct I as [<-|I];
      [split; [|simpl; lia];
       match goal with |- sequence (?c :: ?cs) _ =>
         change 0%N with (seq_value c cs); apply (sequence_intro c cs (S (length cs)));
         [reflexivity | reflexivity | repeat (apply Forall_cons; [exact C80|]); apply Forall_nil] end|]).
    easy.
Qed.

Theorem builtin_unicode_clean cps s :
  Forall (fun cp => (0 < cp)%N /\ scalar cp /\ untouched cp) cps -> s = flat_map encode cps ->
  nonul s -> in_memory s -> clean_utf_8 s (Some load_builtin_unicode_table) = Ok s.
Proof.
  intros F E N M. destruct (builtin_unicode_exact s N M) as (o & R & X & _).
  assert (o = s). { eapply utf8_read_fun; [exact R|]. rewrite E. now apply read_clean_text. }
  subst o. now rewrite N.leb_refl in X.
Qed.

Theorem builtin_unicode_output s o :
  nonul s -> in_memory s -> clean_utf_8 s (Some load_builtin_unicode_table) = Ok o ->
  well_formed_units o /\ nonul o /\ clean_utf_8 o (Some load_builtin_unicode_table) = Ok o.
Proof.
  intros N M E. destruct (builtin_unicode_exact s N M) as (o' & R & X & _). rewrite X in E.
  destruct (N.leb_spec (strlen o') (strlen s)) as [L|L]; [|discriminate]. injection E as ->.
  pose proof (settled_output s o R) as [U S].
  pose proof (unicode_read_nonul s o R N) as No.
  splits; auto.
  destruct (builtin_unicode_exact o No) as (o2 & R2 & X2 & _).
  - unfold in_memory in *. lia.
  - assert (o2 = o) by (eapply utf8_read_fun; eauto). subst o2. now rewrite N.leb_refl in X2.
Qed.

(** Strings that are not valid UTF-8, by their unique reading. *)
Definition mark (cp : N) (u : str) : str :=
  if str_eqb u (encode cp) && ((cp <? 0xD800) || ((0xE000 <=? cp) && (cp <=? 0x10FFFF)))%N
  then bs "v" else bs "x".

Lemma str_eqb_refl s : str_eqb s s = true.
Proof. now apply str_eqb_eq. Qed.

Lemma valid_marks s : valid_utf8 s -> exists n, utf8_read mark s (repeat "v"%byte n).
Proof.
  intros (cps & F & ->). exists (length cps). induction F as [|cp cps S _ IH]; [constructor|].
  simpl. replace ("v"%byte :: repeat "v"%byte (length cps)) with (mark cp (encode cp) ++ repeat "v"%byte (length cps)).
  - apply ur_seq; [apply encode_sequence; now apply scalar_bound | assumption].
  - unfold mark. rewrite str_eqb_refl.
    assert (V : ((cp <? 0xD800) || ((0xE000 <=? cp) && (cp <=? 0x10FFFF)))%N = true).
    { unfold scalar in S. rewrite orb_true_iff, andb_true_iff, N.ltb_lt, !N.leb_le. assumption. }
    now rewrite V.
Qed.

Lemma invalid_sequence u cp : sequence u cp -> mark cp u = bs "x" -> ~ valid_utf8 u.
Proof.
  intros Q X V. apply valid_marks in V. destruct V as [n R].
  assert (R' : utf8_read mark (u ++ []) (mark cp u ++ [])) by (apply ur_seq; [assumption | constructor]).
  rewrite !app_nil_r, X in R'.
  pose proof (utf8_read_fun _ _ _ _ R R') as E. destruct n; discriminate.
Qed.

Lemma surrogate_passes :
  exists s o, clean_utf_8 s (Some load_builtin_unicode_table) = Ok o /\ ~ valid_utf8 o.
Proof.
  exists [xed; xa0; x80], [xed; xa0; x80]. split; [vm_compute; reflexivity|].
  apply (invalid_sequence _ (seq_value xed [xa0; x80])); [|vm_compute; reflexivity].
  apply (sequence_intro xed [xa0; x80] 3); [reflexivity | reflexivity |].
  repeat (apply Forall_cons; [unfold continuation; vm_compute; intuition discriminate|]). apply Forall_nil.
Qed.
