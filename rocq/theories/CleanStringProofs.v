(** * Proofs about src/clean_string.c *)

From Verif Require Import Base BaseFacts Table TableSpec TableProofs BuiltinTables CleanString CleanSpec.

Lemma bind_assoc {A B C} (m : res A) (f : A -> res B) (g : B -> res C) :
  bind (bind m f) g = bind m (fun x => bind (f x) g).
Proof. now destruct m. Qed.

Lemma wrs_app cap acc a b : wrs cap acc (a ++ b) = bind (wrs cap acc a) (fun x => wrs cap x b).
Proof.
  revert acc; induction a as [|x a IH]; intros acc; simpl; [reflexivity|].
  rewrite bind_assoc. destruct (wr cap acc x); simpl; auto.
Qed.

Lemma wrs_one cap acc c : wrs cap acc [c] = wr cap acc c.
Proof. simpl. now destruct (wr cap acc c). Qed.

(** Writing [out] into a buffer of [cap] bytes and terminating it. *)
Definition store (cap : N) (out : list byte) : res str :=
  if (N.of_nat (length out) <? cap)%N then Ok (cstr out) else UB BufferOverflow.

Lemma write_all cap out : (0 < cap)%N -> (do acc <- wrs cap [] out; finish cap acc) = store cap out.
Proof.
  intros H. rewrite wrs_spec by (simpl; lia). simpl. unfold store.
  destruct (N.leb_spec (N.of_nat (length out)) cap) as [L|L]; simpl.
  - rewrite app_nil_r. destruct (N.ltb_spec (N.of_nat (length out)) cap) as [L'|L'].
    + rewrite finish_ok by (now rewrite rev_length). now rewrite rev_involutive.
    + apply finish_over. now rewrite rev_length.
  - destruct (N.ltb_spec (N.of_nat (length out)) cap); [lia | reflexivity].
Qed.

Lemma store_ok cap out : (N.of_nat (length out) < cap)%N -> store cap out = Ok (cstr out).
Proof. intros H. unfold store. apply N.ltb_lt in H. now rewrite H. Qed.

Lemma store_zero out : store 0 out = UB BufferOverflow.
Proof. unfold store. now rewrite (proj2 (N.ltb_ge _ _)) by lia. Qed.

Lemma write_all' cap out : (do acc <- wrs cap [] out; finish cap acc) = store cap out.
Proof.
  destruct (N.eq_dec cap 0) as [->|H]; [|apply write_all; lia].
  rewrite store_zero. destruct out; reflexivity.
Qed.

(** ** Table-driven filters *)

(** The text for one byte, given the lookup result. *)
Definition subst_char (t : table) (look : option str) (c : byte) : str :=
  match look with
  | Some r => r
  | None => match t_default t with Some d => d | None => [c] end
  end.

Definition iso_char (t : table) (c : byte) : str :=
  if (bN c <? 128)%N then [c] else subst_char t (table_get t (bN c)) c.

Definition safe_char (schar : bool) (t : table) (c : byte) : str :=
  subst_char t (table_get t (char_key schar c)) c.

Lemma land80 c : (N.land (bN c) 0x80 =? 0)%N = (bN c <? 128)%N.
Proof.
  apply eqb_prop. revert c.
  apply (byte_sweep (fun c => Bool.eqb (N.land (bN c) 0x80 =? 0)%N (bN c <? 128)%N)).
  vm_compute. reflexivity.
Qed.

Lemma iso_loop_wrs cap t s : forall acc,
  iso8859_1_loop cap t s acc = wrs cap acc (flat_map (iso_char t) s).
Proof.
  induction s as [|c s IH]; intros acc; [reflexivity|].
  simpl. unfold iso_char at 1, subst_char. rewrite land80. rewrite wrs_app.
  destruct (bN c <? 128)%N.
  - rewrite wrs_one. destruct (wr cap acc c); simpl; auto.
  - destruct (table_get t (bN c)); [|destruct (t_default t)]; rewrite ?wrs_one.
    + destruct (wrs cap acc s0); simpl; auto.
    + destruct (wrs cap acc s0); simpl; auto.
    + destruct (wr cap acc c); simpl; auto.
Qed.

Lemma safe_loop_wrs schar cap t s : forall acc,
  safe_loop schar cap t s acc = wrs cap acc (flat_map (safe_char schar t) s).
Proof.
  induction s as [|c s IH]; intros acc; [reflexivity|].
  simpl. unfold safe_char at 1, subst_char. rewrite wrs_app.
  destruct (table_get t (char_key schar c)); [|destruct (t_default t)]; rewrite ?wrs_one.
  - destruct (wrs cap acc s0); simpl; auto.
  - destruct (wrs cap acc s0); simpl; auto.
  - destruct (wr cap acc c); simpl; auto.
Qed.

Theorem clean_iso8859_1_eq s t :
  clean_iso8859_1 s (Some t) = store (table_cap t s) (flat_map (iso_char t) s).
Proof. unfold clean_iso8859_1. cbv zeta. rewrite iso_loop_wrs. apply write_all'. Qed.

Theorem clean_safe_eq schar s t :
  clean_safe schar s (Some t) = store (table_cap t s) (flat_map (safe_char schar t) s).
Proof. unfold clean_safe. cbv zeta. rewrite safe_loop_wrs. apply write_all'. Qed.


Lemma table_cap_fits t s : fits t s -> table_cap t s = (strlen s * N.of_nat (t_maxdata t) + 1)%N.
Proof. unfold fits, table_cap. intros H. rewrite (size_t_small (_ * _)) by lia. now apply size_t_small. Qed.

Lemma flat_map_length_le (f : byte -> str) m s :
  (forall c, (length (f c) <= m)%nat) -> (length (flat_map f s) <= length s * m)%nat.
Proof.
  intros H. induction s as [|c s IH]; simpl; [lia|]. rewrite app_length. specialize (H c). lia.
Qed.


Lemma subst_char_le t k c :
  wf t -> roomy t -> (length (subst_char t (table_get t k) c) <= t_maxdata t)%nat.
Proof.
  intros W [R1 R2]. unfold subst_char. destruct (table_get t k) eqn:G.
  - eapply get_maxdata; eauto.
  - destruct (t_default t) eqn:D; [now apply R2 | exact R1].
Qed.

Lemma iso_char_le t c : wf t -> roomy t -> (length (iso_char t c) <= t_maxdata t)%nat.
Proof.
  intros W R. unfold iso_char. destruct (bN c <? 128)%N.
  - apply (proj1 R).
  - now apply subst_char_le.
Qed.

Lemma safe_char_le schar t c : wf t -> roomy t -> (length (safe_char schar t c) <= t_maxdata t)%nat.
Proof. intros W R. now apply subst_char_le. Qed.

Lemma store_table_ok (f : byte -> str) t s :
  fits t s -> (forall c, (length (f c) <= t_maxdata t)%nat) ->
  store (table_cap t s) (flat_map f s) = Ok (cstr (flat_map f s)).
Proof.
  intros F H. apply store_ok. rewrite table_cap_fits by assumption.
  pose proof (flat_map_length_le f (t_maxdata t) s H). unfold strlen. nia.
Qed.

Theorem clean_iso8859_1_ok s t :
  wf t -> roomy t -> fits t s -> clean_iso8859_1 s (Some t) = Ok (cstr (flat_map (iso_char t) s)).
Proof. intros W R F. rewrite clean_iso8859_1_eq. apply store_table_ok; auto using iso_char_le. Qed.

Theorem clean_safe_ok schar s t :
  wf t -> roomy t -> fits t s -> clean_safe schar s (Some t) = Ok (cstr (flat_map (safe_char schar t) s)).
Proof. intros W R F. rewrite clean_safe_eq. apply store_table_ok; auto using safe_char_le. Qed.

Lemma nonul_flat_map (f : byte -> str) s :
  (forall c, In c s -> nonul (f c)) -> nonul (flat_map f s).
Proof.
  intros H I. apply in_flat_map in I. destruct I as (c & Ic & I). now apply (H c).
Qed.


Lemma subst_char_nonul t k c : text_table t -> c <> NUL -> nonul (subst_char t (table_get t k) c).
Proof.
  intros [T1 T2] C. unfold subst_char. destruct (table_get t k) eqn:G; [eauto|].
  destruct (t_default t) eqn:D; [eauto|]. apply nonul_cons. split; [assumption | apply nonul_nil].
Qed.

Lemma iso_char_nonul t c : text_table t -> c <> NUL -> nonul (iso_char t c).
Proof.
  intros T C. unfold iso_char. destruct (bN c <? 128)%N; [|now apply subst_char_nonul].
  apply nonul_cons. split; [assumption | apply nonul_nil].
Qed.

Lemma nonul_not_nul s c : nonul s -> In c s -> c <> NUL.
Proof. intros H I ->. now apply H. Qed.

(** ** Built-in tables: values at every byte *)

Lemma wf_builtin_safe : wf load_builtin_safe_table.
Proof. apply wf_resize. Qed.
Lemma wf_builtin_iso8859_1 : wf load_builtin_iso8859_1_table.
Proof. apply wf_resize. Qed.
Lemma wf_builtin_cp1252 : wf load_builtin_cp1252_table.
Proof. apply wf_resize. Qed.
Lemma wf_builtin_unicode : wf load_builtin_unicode_table.
Proof. apply wf_resize. Qed.

Local Opaque load_builtin_safe_table load_builtin_iso8859_1_table load_builtin_cp1252_table
  load_builtin_unicode_table.

(** A lookup in a table whose rows have been computed. *)
Lemma table_get_outside t k :
  wf t -> forallb (fun r => negb (r_key r =? k)%N) (t_rows t) = true -> table_get t k = None.
Proof.
  intros W H. destruct (N.eq_dec k 0) as [->|K]; [reflexivity|].
  apply table_get_none_iff; auto. intros i L E.
  rewrite forallb_forall in H. specialize (H (row_at (t_rows t) i) (nth_In _ _ L)).
  apply negb_true_iff, N.eqb_neq in H. contradiction.
Qed.

Lemma forallb_impl {A} (p q : A -> bool) l :
  (forall x, p x = true -> q x = true) -> forallb p l = true -> forallb q l = true.
Proof.
  intros H. rewrite !forallb_forall. auto.
Qed.

Lemma safe_rows_small :
  forallb (fun r => (r_key r <? 128)%N) (t_rows load_builtin_safe_table) = true.
Proof. vm_compute. reflexivity. Qed.

Lemma safe_get_high k : (128 <= k)%N -> table_get load_builtin_safe_table k = None.
Proof.
  intros H. apply table_get_outside; [apply wf_builtin_safe|].
  eapply forallb_impl; [|apply safe_rows_small].
  intros r L. apply N.ltb_lt in L. apply negb_true_iff, N.eqb_neq. lia.
Qed.

Lemma builtin_safe_char schar c : c <> NUL -> safe_char schar load_builtin_safe_table c = safe_spec c.
Proof.
  intros C. unfold safe_char, char_key.
  destruct (N.leb_spec 128 (bN c)) as [H|H].
  - assert (E : safe_spec c = [c]).
    { assert (S : forall c, (if (128 <=? bN c)%N then str_eqb (safe_spec c) [c] else true) = true).
      { apply byte_sweep. vm_compute. reflexivity. }
      specialize (S c). apply N.leb_le in H. rewrite H in S. now apply str_eqb_eq. }
    rewrite E. destruct schar; cbn [andb]; apply N.leb_le in H; rewrite ?H; apply N.leb_le in H;
    (rewrite safe_get_high; [reflexivity|]); [|exact H].
    change (2 ^ 32)%N with 4294967296%N. lia.
  - rewrite andb_false_r.
    assert (S : forall c, (if (bN c =? 0)%N || (128 <=? bN c)%N then true
               else str_eqb (subst_char load_builtin_safe_table (table_get load_builtin_safe_table (bN c)) c)
                            (safe_spec c)) = true).
    { apply byte_sweep. vm_compute. reflexivity. }
    specialize (S c). apply N.leb_gt in H. rewrite H in S.
    destruct (N.eqb_spec (bN c) 0) as [E|_].
    + exfalso. apply C. apply bN_inj. rewrite E. reflexivity.
    + simpl in S. now apply str_eqb_eq.
Qed.

Lemma flat_map_ext_in {A B} (f g : A -> list B) l :
  (forall x, In x l -> f x = g x) -> flat_map f l = flat_map g l.
Proof.
  induction l as [|x l IH]; intros H; [reflexivity|].
  simpl. rewrite (H x), IH; auto; [intros; apply H; now right | now left].
Qed.

Lemma safe_spec_nonul c : c <> NUL -> nonul (safe_spec c).
Proof.
  intros C. apply nonul_iff.
  assert (S : forall c, (if beq c NUL then true else forallb (fun c => negb (beq c NUL)) (safe_spec c)) = true).
  { apply byte_sweep. vm_compute. reflexivity. }
  specialize (S c). apply beq_neq in C. now rewrite C in S.
Qed.


Lemma roomy_builtin_safe : roomy load_builtin_safe_table.
Proof. split; [vm_compute; lia | intros d H; vm_compute in H; discriminate]. Qed.

Lemma fits_of t s m : t_maxdata t = m -> (m <= 8)%nat -> in_memory s -> fits t s.
Proof.
  unfold fits, in_memory. intros -> H L.
  change (2 ^ 64)%N with 18446744073709551616%N. change (2 ^ 60)%N with 1152921504606846976%N in L.
  nia.
Qed.

Theorem builtin_safe_eq schar s :
  nonul s -> in_memory s ->
  clean_safe schar s (Some load_builtin_safe_table) = Ok (flat_map safe_spec s).
Proof.
  intros N M. rewrite clean_safe_ok; auto using wf_builtin_safe, roomy_builtin_safe.
  - f_equal.
    assert (E : flat_map (safe_char schar load_builtin_safe_table) s = flat_map safe_spec s).
    { apply flat_map_ext_in. intros c I. apply builtin_safe_char. now apply (nonul_not_nul s). }
    rewrite E. apply cstr_nonul, nonul_flat_map. intros c I. apply safe_spec_nonul.
    now apply (nonul_not_nul s).
  - eapply fits_of; [vm_compute; reflexivity | lia | assumption].
Qed.

Definition difficultb (c : byte) : bool :=
  ((bN c <=? 32) || (bN c =? 127))%N || existsb (beq c) shell_special.

Lemma existsb_beq c l : existsb (beq c) l = true <-> In c l.
Proof.
  rewrite existsb_exists. split.
  - intros (x & I & E). apply beq_eq in E. now subst.
  - intros I. exists c. split; [assumption | apply beq_refl].
Qed.

Lemma difficultb_iff c : difficultb c = true <-> difficult c.
Proof.
  unfold difficultb, difficult. rewrite !orb_true_iff, N.leb_le, N.eqb_eq, existsb_beq. tauto.
Qed.

Lemma safe_spec_clean c d : In d (safe_spec c) -> ~ difficult d.
Proof.
  intros I D. apply difficultb_iff in D.
  assert (S : forall c, forallb (fun d => negb (difficultb d)) (safe_spec c) = true).
  { apply byte_sweep. vm_compute. reflexivity. }
  specialize (S c). rewrite forallb_forall in S. apply S in I. now rewrite D in I.
Qed.

Lemma safe_spec_keep c : ~ difficult c -> safe_spec c = [c].
Proof.
  intros D.
  assert (S : forall c, (if difficultb c then true else str_eqb (safe_spec c) [c]) = true).
  { apply byte_sweep. vm_compute. reflexivity. }
  specialize (S c). destruct (difficultb c) eqn:E.
  - apply difficultb_iff in E. contradiction.
  - now apply str_eqb_eq.
Qed.

Lemma safe_spec_difficult c : difficult c -> In (safe_spec c) [bs "_"; bs "-"; bs "_and_"].
Proof.
  intros D. apply difficultb_iff in D.
  assert (S : forall c, (if difficultb c then existsb (str_eqb (safe_spec c)) [bs "_"; bs "-"; bs "_and_"] else true) = true).
  { apply byte_sweep. vm_compute. reflexivity. }
  specialize (S c). rewrite D in S. apply existsb_exists in S. destruct S as (x & I & E).
  apply str_eqb_eq in E. now subst.
Qed.

Lemma flat_map_id (f : byte -> str) s : (forall c, In c s -> f c = [c]) -> flat_map f s = s.
Proof.
  induction s as [|c s IH]; intros H; [reflexivity|].
  simpl. rewrite (H c) by now left. simpl. f_equal. apply IH. intros; apply H. now right.
Qed.

Lemma flat_map_nil_inv {A} (f : A -> str) s c : flat_map f s = [] -> In c s -> f c = [].
Proof.
  induction s as [|d s IH]; intros H; [easy|].
  simpl in H. apply app_eq_nil in H. destruct H as [H1 H2]. intros [->|I]; auto.
Qed.

Lemma safe_idem s : flat_map safe_spec (flat_map safe_spec s) = flat_map safe_spec s.
Proof.
  apply flat_map_id. intros c I. apply in_flat_map in I. destruct I as (d & _ & I).
  apply safe_spec_keep. eapply safe_spec_clean; eauto.
Qed.

(** ** iso8859_1 and cp1252 *)

Lemma roomy_builtin_iso8859_1 : roomy load_builtin_iso8859_1_table.
Proof.
  split; [vm_compute; lia | intros d H]. vm_compute in H. injection H as <-. vm_compute. lia.
Qed.

Lemma roomy_builtin_cp1252 : roomy load_builtin_cp1252_table.
Proof. split; [vm_compute; lia | intros d H; vm_compute in H; discriminate]. Qed.

Lemma builtin_iso_char c : iso_char load_builtin_iso8859_1_table c = iso8859_1_spec c.
Proof.
  apply str_eqb_eq. revert c. apply byte_sweep. vm_compute. reflexivity.
Qed.

Lemma builtin_cp1252_char c : iso_char load_builtin_cp1252_table c = cp1252_spec c.
Proof.
  apply str_eqb_eq. revert c. apply byte_sweep. vm_compute. reflexivity.
Qed.

Lemma sweep_nonul (f : byte -> str) :
  forallb (fun c => beq c NUL || forallb (fun d => negb (beq d NUL)) (f c)) all_bytes = true ->
  forall c, c <> NUL -> nonul (f c).
Proof.
  intros H c C. apply nonul_iff.
  pose proof (byte_sweep _ H c) as S. cbv beta in S. apply beq_neq in C. now rewrite C in S.
Qed.

Lemma iso_spec_nonul c : c <> NUL -> nonul (iso8859_1_spec c).
Proof. apply sweep_nonul. vm_compute. reflexivity. Qed.

Lemma cp1252_spec_nonul c : c <> NUL -> nonul (cp1252_spec c).
Proof. apply sweep_nonul. vm_compute. reflexivity. Qed.

Lemma flat_map_nonul_in (f : byte -> str) s :
  (forall c, c <> NUL -> nonul (f c)) -> nonul s -> nonul (flat_map f s).
Proof. intros H N. apply nonul_flat_map. intros c I. apply H. now apply (nonul_not_nul s). Qed.

Theorem builtin_iso8859_1_eq s :
  nonul s -> in_memory s ->
  clean_iso8859_1 s (Some load_builtin_iso8859_1_table) = Ok (flat_map iso8859_1_spec s).
Proof.
  intros N M. rewrite clean_iso8859_1_ok; auto using wf_builtin_iso8859_1, roomy_builtin_iso8859_1.
  - f_equal. erewrite flat_map_ext_in by (intros c _; apply builtin_iso_char).
    apply cstr_nonul, flat_map_nonul_in; auto using iso_spec_nonul.
  - eapply fits_of; [vm_compute; reflexivity | lia | assumption].
Qed.

Theorem builtin_cp1252_eq s :
  nonul s -> in_memory s ->
  clean_iso8859_1 s (Some load_builtin_cp1252_table) = Ok (flat_map cp1252_spec s).
Proof.
  intros N M. rewrite clean_iso8859_1_ok; auto using wf_builtin_cp1252, roomy_builtin_cp1252.
  - f_equal. erewrite flat_map_ext_in by (intros c _; apply builtin_cp1252_char).
    apply cstr_nonul, flat_map_nonul_in; auto using cp1252_spec_nonul.
  - eapply fits_of; [vm_compute; reflexivity | lia | assumption].
Qed.

Lemma scalar_small n : (n < 0xD800)%N -> scalar n.
Proof. now left. Qed.

Lemma iso_spec_valid c : valid_utf8 (iso8859_1_spec c).
Proof.
  assert (S : forall c, existsb (fun n => (n <? 0xD800)%N && str_eqb (encode n) (iso8859_1_spec c))
                          [bN c; 95; 32; 45]%N = true).
  { apply byte_sweep. vm_compute. reflexivity. }
  specialize (S c). apply existsb_exists in S. destruct S as (n & _ & S).
  apply andb_true_iff in S. destruct S as [S1 S2]. apply N.ltb_lt in S1. apply str_eqb_eq in S2.
  exists [n]. split.
  - constructor; [now left | constructor].
  - simpl. now rewrite app_nil_r.
Qed.

Lemma valid_app a b : valid_utf8 a -> valid_utf8 b -> valid_utf8 (a ++ b).
Proof.
  intros (x & X & ->) (y & Y & ->). exists (x ++ y). split.
  - now apply Forall_app.
  - now rewrite flat_map_app.
Qed.

Lemma valid_flat_map (f : byte -> str) s : (forall c, valid_utf8 (f c)) -> valid_utf8 (flat_map f s).
Proof.
  intros H. induction s as [|c s IH]; simpl; [now exists []|]. now apply valid_app.
Qed.

Lemma flat_map_flat_map (f g : byte -> str) s :
  flat_map g (flat_map f s) = flat_map (fun c => flat_map g (f c)) s.
Proof.
  induction s as [|c s IH]; simpl; [reflexivity|]. now rewrite flat_map_app, IH.
Qed.

Lemma cp1252_spec_length c : (length (cp1252_spec c) <= 3)%nat.
Proof.
  apply Nat.leb_le. revert c. apply (byte_sweep (fun c => (length (cp1252_spec c) <=? 3)%nat)).
  vm_compute. reflexivity.
Qed.

Theorem legacy_chain_eq s :
  nonul s -> (strlen s < 2 ^ 58)%N ->
  (do x <- clean_iso8859_1 s (Some load_builtin_cp1252_table);
   clean_iso8859_1 x (Some load_builtin_iso8859_1_table))
  = Ok (flat_map (fun c => flat_map iso8859_1_spec (cp1252_spec c)) s).
Proof.
  intros N M.
  change (2 ^ 58)%N with 288230376151711744%N in M.
  assert (M' : in_memory s).
  { unfold in_memory. change (2 ^ 60)%N with 1152921504606846976%N. lia. }
  rewrite builtin_cp1252_eq by assumption. cbn [bind].
  rewrite builtin_iso8859_1_eq.
  - now rewrite flat_map_flat_map.
  - apply flat_map_nonul_in; auto using cp1252_spec_nonul.
  - unfold in_memory, strlen in *. change (2 ^ 60)%N with 1152921504606846976%N.
    pose proof (flat_map_length_le cp1252_spec 3 s cp1252_spec_length). lia.
Qed.

(** ** uncgi *)

Lemma isxdigit_hex c : isxdigit c = match hex_digit c with Some _ => true | None => false end.
Proof.
  apply eqb_prop. revert c.
  apply (byte_sweep (fun c => Bool.eqb (isxdigit c) (match hex_digit c with Some _ => true | None => false end))).
  vm_compute. reflexivity.
Qed.

Lemma hexval_hex c v : hex_digit c = Some v -> hexval c = v /\ (v < 16)%N.
Proof.
  assert (S : forall c, match hex_digit c with Some v => (hexval c =? v)%N && (v <? 16)%N | None => true end = true).
  { apply byte_sweep. vm_compute. reflexivity. }
  specialize (S c). intros H. rewrite H in S. apply andb_true_iff in S.
  now rewrite N.eqb_eq, N.ltb_lt in S.
Qed.

(** The bytes the loop writes. *)
Fixpoint uncgi_out (s : str) : list byte :=
  match s with
  | [] => []
  | c :: rest =>
    match rest with
    | h1 :: (h2 :: rest2) =>
      if beq c "%" && isxdigit h1 && isxdigit h2 then Nb (hexval h1 * 16 + hexval h2) :: uncgi_out rest2
      else if beq c "+" then " "%byte :: uncgi_out rest
      else c :: uncgi_out rest
    | _ => if beq c "+" then " "%byte :: uncgi_out rest else c :: uncgi_out rest
    end
  end.

Lemma list_ind3 (P : str -> Prop) :
  P [] -> (forall a s, P s -> (forall b c r, s = b :: c :: r -> P r) -> P (a :: s)) -> forall s, P s.
Proof.
  intros H0 H1. 
  assert (A : forall n s, (length s <= n)%nat -> P s).
  { induction n as [|n IH]; intros [|a s] L; simpl in L; try lia; auto.
    apply H1; [apply IH; lia|]. intros b c r ->. apply IH. simpl in L. lia. }
  intros s. now apply (A (length s)).
Qed.

Lemma uncgi_loop_wrs cap s : forall acc, uncgi_loop cap s acc = wrs cap acc (uncgi_out s).
Proof.
  induction s as [|c s IH IH2] using list_ind3; intros acc; [reflexivity|].
  destruct s as [|h1 [|h2 r]].
  - simpl. destruct (beq c "+"); simpl; [destruct (wr cap acc " ") | destruct (wr cap acc c)]; auto.
  - specialize (IH). cbn [uncgi_loop uncgi_out] in *.
    destruct (beq c "+"); simpl wrs; [destruct (wr cap acc " ") | destruct (wr cap acc c)]; simpl bind; auto;
    apply IH.
  - specialize (IH2 h1 h2 r eq_refl).
    change (uncgi_loop cap (c :: h1 :: h2 :: r) acc) with
      (if beq c "%" && isxdigit h1 && isxdigit h2 then
        do a <- wr cap acc (Nb (hexval h1 * 16 + hexval h2)); uncgi_loop cap r a
      else if beq c "+" then do a <- wr cap acc " "; uncgi_loop cap (h1 :: h2 :: r) a
      else do a <- wr cap acc c; uncgi_loop cap (h1 :: h2 :: r) a)%byte.
    change (uncgi_out (c :: h1 :: h2 :: r)) with
      (if beq c "%" && isxdigit h1 && isxdigit h2 then Nb (hexval h1 * 16 + hexval h2) :: uncgi_out r
      else if beq c "+" then " "%byte :: uncgi_out (h1 :: h2 :: r)
      else c :: uncgi_out (h1 :: h2 :: r)).
    destruct (beq c "%" && isxdigit h1 && isxdigit h2); [|destruct (beq c "+")]; cbn [wrs];
      match goal with |- bind (wr ?a ?b ?c) _ = _ => destruct (wr a b c) end; cbn [bind]; auto.
Qed.

Lemma uncgi_out_length s : (length (uncgi_out s) <= length s)%nat.
Proof.
  induction s as [|c s IH IH2] using list_ind3; [simpl; lia|].
  destruct s as [|h1 [|h2 r]].
  - simpl. destruct (beq c "+"); simpl; lia.
  - cbn [uncgi_out] in *. destruct (beq c "+"); simpl in *; lia.
  - specialize (IH2 h1 h2 r eq_refl).
    change (uncgi_out (c :: h1 :: h2 :: r)) with
      (if beq c "%" && isxdigit h1 && isxdigit h2 then Nb (hexval h1 * 16 + hexval h2) :: uncgi_out r
      else if beq c "+" then " "%byte :: uncgi_out (h1 :: h2 :: r)
      else c :: uncgi_out (h1 :: h2 :: r)).
    destruct (beq c "%" && isxdigit h1 && isxdigit h2); [|destruct (beq c "+")]; cbn [length] in *; lia.
Qed.

Theorem clean_uncgi_eq s : in_memory s -> clean_uncgi s = Ok (cstr (uncgi_out s)).
Proof.
  intros M. unfold clean_uncgi. cbv zeta. rewrite uncgi_loop_wrs, write_all'.
  apply store_ok. pose proof (uncgi_out_length s). unfold in_memory, strlen in *.
  change (2 ^ 60)%N with 1152921504606846976%N in M.
  rewrite size_t_small; [lia|]. change (2 ^ 64)%N with 18446744073709551616%N. lia.
Qed.

Lemma uncgi_out_cons c rest :
  uncgi_out (c :: rest) =
  match rest with
  | h1 :: (h2 :: rest2) =>
    if beq c "%" && isxdigit h1 && isxdigit h2 then Nb (hexval h1 * 16 + hexval h2) :: uncgi_out rest2
    else if beq c "+" then " "%byte :: uncgi_out rest
    else c :: uncgi_out rest
  | _ => if beq c "+" then " "%byte :: uncgi_out rest else c :: uncgi_out rest
  end.
Proof. reflexivity. Qed.

Lemma cgi_reads_out s o : cgi_reads s o -> uncgi_out s = o.
Proof.
  induction 1 as [|c r o N1 N2 H IH|r o H IH|c h l a b r o Ha Hb Hc H IH|r o NE H IH].
  - reflexivity.
  - apply beq_neq in N1, N2. rewrite uncgi_out_cons, N1, N2. cbn [andb].
    rewrite IH. now destruct r as [|h1 [|h2 r]].
  - rewrite uncgi_out_cons, IH. now destruct r as [|h1 [|h2 r]].
  - rewrite uncgi_out_cons, !isxdigit_hex, Ha, Hb, IH.
    apply hexval_hex in Ha, Hb. destruct Ha as [-> La], Hb as [-> Lb].
    replace (beq "%" "%") with true by reflexivity. cbn [andb]. f_equal.
    apply bN_inj. rewrite bN_Nb; lia.
  - rewrite uncgi_out_cons, IH.
    replace (beq "%" "+") with false by reflexivity.
    destruct r as [|h1 [|h2 r]]; try reflexivity.
    rewrite !isxdigit_hex. simpl in NE.
    destruct NE as [-> | ->]; now rewrite ?andb_false_r.
Qed.

Lemma cgi_reads_total s : exists o, cgi_reads s o.
Proof.
  induction s as [|c s [o IH] IH2] using list_ind3; [exists []; constructor|].
  destruct (byte_dec c "%"%byte) as [->|Np].
  - destruct s as [|h [|l r]].
    + exists ("%"%byte :: o). now constructor.
    + exists ("%"%byte :: o). now constructor.
    + destruct (hex_digit h) as [a|] eqn:Ha; [destruct (hex_digit l) as [b|] eqn:Hb|].
      * destruct (IH2 h l r eq_refl) as [o2 H2].
        exists (Nb (16 * a + b) :: o2). apply cr_escape with a b; auto.
        apply hexval_hex in Ha, Hb. apply bN_Nb. lia.
      * exists ("%"%byte :: o). constructor; [now right | assumption].
      * exists ("%"%byte :: o). constructor; [now left | assumption].
  - destruct (byte_dec c "+"%byte) as [->|Nq].
    + exists (" "%byte :: o). now constructor.
    + exists (c :: o). now constructor.
Qed.

Lemma cgi_encodes_reads s e : cgi_encodes s e -> cgi_reads e s.
Proof.
  induction 1; [constructor | now constructor | now constructor | eapply cr_escape; eauto].
Qed.

Lemma cgi_reads_app s e r o : cgi_encodes s e -> cgi_reads r o -> cgi_reads (e ++ r) (s ++ o).
Proof.
  intros H R. induction H; simpl; [assumption | now constructor | now constructor | eapply cr_escape; eauto].
Qed.

(** ** wipeup *)

Definition search_of (rt : bool) : str := if rt then bs ".-_" else bs "-_".

Definition cur_char (search : str) (i : nat) : byte := nth i search NUL.

(** What the loop writes. *)
Fixpoint wipeup_out (search : str) (input : str) (current : option nat) : list byte :=
  match input with
  | [] => match current with Some i => [cur_char search i] | None => [] end
  | c :: rest =>
    match strchr_idx search c 0 with
    | Some seek =>
      let current' := match current with
                      | None => Some seek
                      | Some cur => if (seek <? cur)%nat then Some seek else Some cur
                      end in
      wipeup_out search rest current'
    | None =>
      match current with Some i => [cur_char search i] | None => [] end
        ++ c :: wipeup_out search rest None
    end
  end.

Lemma wipeup_loop_wrs cap search s : forall cur acc,
  wipeup_loop cap search s cur acc = wrs cap acc (wipeup_out search s cur).
Proof.
  induction s as [|c s IH]; intros cur acc; simpl.
  - destruct cur; simpl; [|reflexivity]. unfold cur_char. now destruct (wr cap acc _).
  - destruct (strchr_idx search c 0) as [seek|]; [apply IH|].
    destruct cur as [i|]; simpl; unfold cur_char.
    + destruct (wr cap acc (nth i search NUL)); simpl; auto.
      destruct (wr cap a c); simpl; auto.
    + destruct (wr cap acc c); simpl; auto.
Qed.

Lemma wipeup_out_length search s : forall cur,
  (length (wipeup_out search s cur) <= length s + match cur with Some _ => 1 | None => 0 end)%nat.
Proof.
  induction s as [|c s IH]; intros cur; simpl.
  - destruct cur; simpl; lia.
  - destruct (strchr_idx search c 0) as [seek|].
    + destruct cur as [i|]; [destruct (seek <? i)%nat|];
        match goal with |- context [wipeup_out search s ?x] => specialize (IH x) end; simpl in *; lia.
    + rewrite app_length. simpl. specialize (IH None). destruct cur; simpl in *; lia.
Qed.

Lemma wipeup_skip_length s : (length (wipeup_skip s) <= length s)%nat.
Proof.
  induction s as [|c s IH]; simpl; [lia|]. destruct (beq c "-" || beq c "_" || beq c "#"); simpl; lia.
Qed.

Theorem clean_wipeup_eq s rt :
  in_memory s -> clean_wipeup s rt = Ok (cstr (wipeup_out (search_of rt) (wipeup_skip s) None)).
Proof.
  intros M. unfold clean_wipeup. cbv zeta. rewrite wipeup_loop_wrs, write_all'.
  apply store_ok. pose proof (wipeup_out_length (search_of rt) (wipeup_skip s) None).
  pose proof (wipeup_skip_length s). unfold in_memory, strlen in *.
  change (2 ^ 60)%N with 1152921504606846976%N in M.
  rewrite size_t_small; [unfold search_of in *; lia|].
  change (2 ^ 64)%N with 18446744073709551616%N. lia.
Qed.

(** Index of a byte among the separators; smaller is stronger. *)
Lemma strchr_idx_spec rt c :
  match strchr_idx (search_of rt) c 0 with
  | Some i => separator rt c /\ cur_char (search_of rt) i = c /\ (i < 3)%nat
  | None => ~ separator rt c
  end.
Proof.
  unfold separator.
  destruct rt; unfold search_of, cur_char; cbn -[beq].
  - destruct (beq "." c) eqn:E1; [apply beq_eq in E1; subst; splits; auto|].
    destruct (beq "-" c) eqn:E2; [apply beq_eq in E2; subst; splits; auto|].
    destruct (beq "_" c) eqn:E3; [apply beq_eq in E3; subst; splits; auto|].
    apply beq_neq in E1, E2, E3. intros [H|[H|[_ H]]]; congruence.
  - destruct (beq "-" c) eqn:E2; [apply beq_eq in E2; subst; splits; auto|].
    destruct (beq "_" c) eqn:E3; [apply beq_eq in E3; subst; splits; auto|].
    apply beq_neq in E2, E3. intros [H|[H|[H _]]]; congruence.
Qed.

Lemma idx_strength rt c d i j :
  strchr_idx (search_of rt) c 0 = Some i -> strchr_idx (search_of rt) d 0 = Some j ->
  ((i < j)%nat -> (strength d <= strength c)%nat) /\ ((j <= i)%nat -> (strength c <= strength d)%nat).
Proof.
  pose proof (strchr_idx_spec rt c) as Hc. pose proof (strchr_idx_spec rt d) as Hd.
  intros Ec Ed. rewrite Ec in Hc. rewrite Ed in Hd.
  destruct Hc as ([->|[->|[_ ->]]] & _ & _), Hd as ([->|[->|[_ ->]]] & _ & _); destruct rt; try discriminate;
  vm_compute in Ec, Ed; injection Ec as <-; injection Ed as <-; vm_compute; split; intros; lia.
Qed.

(** The pending character stands for the run read so far. *)
Lemma wipeup_out_spec rt s :
  runs_collapsed rt s (wipeup_out (search_of rt) s None) /\
  (forall r i, r <> [] -> Forall (separator rt) r ->
     strongest (cur_char (search_of rt) i) r ->
     strchr_idx (search_of rt) (cur_char (search_of rt) i) 0 = Some i ->
     runs_collapsed rt (r ++ s) (wipeup_out (search_of rt) s (Some i))).
Proof.
  induction s as [|c s [IH1 IH2]].
  - split; [constructor|]. intros r i Hr Fr Sr _. simpl.
    apply rc_run; auto; constructor.
  - pose proof (strchr_idx_spec rt c) as Hc. split.
    + simpl. destruct (strchr_idx (search_of rt) c 0) as [k|] eqn:E.
      * destruct Hc as (Sc & Cc & _). apply (IH2 [c] k); auto; try easy.
        -- rewrite Cc. split; [now left|]. intros x [->|[]]. lia.
        -- now rewrite Cc.
      * now constructor.
    + intros r i Hr Fr Sr Ei. simpl. destruct (strchr_idx (search_of rt) c 0) as [k|] eqn:E.
      * destruct Hc as (Sc & Cc & _).
        replace (r ++ c :: s) with ((r ++ [c]) ++ s) by now rewrite <- app_assoc.
        destruct Sr as [Ir Mr].
        pose proof (idx_strength rt c (cur_char (search_of rt) i) k i E Ei) as [Hlt Hge].
        destruct (Nat.ltb_spec k i) as [L|L].
        -- apply IH2.
           ++ destruct r; easy.
           ++ apply Forall_app. split; auto.
           ++ rewrite Cc. split; [apply in_app_iff; right; now left|].
              intros x I. apply in_app_iff in I. destruct I as [I|[<-|[]]]; [|lia].
              specialize (Mr x I). specialize (Hlt L). lia.
           ++ now rewrite Cc.
        -- apply IH2.
           ++ destruct r; easy.
           ++ apply Forall_app. split; auto.
           ++ split; [apply in_app_iff; now left|].
              intros x I. apply in_app_iff in I. destruct I as [I|[<-|[]]]; [now apply Mr|].
              now apply Hge.
           ++ assumption.
      * simpl. apply rc_run; auto. now constructor.
Qed.

Lemma wipeup_skip_spec s :
  exists junk, s = junk ++ wipeup_skip s /\ Forall leading_junk junk /\
               ~ starts_with leading_junk (wipeup_skip s).
Proof.
  induction s as [|c s (j & E & F & N)]; [now exists []|].
  simpl. destruct (beq c "-" || beq c "_" || beq c "#") eqn:B.
  - exists (c :: j). splits; auto.
    + simpl. now rewrite <- E.
    + constructor; [|assumption]. rewrite !orb_true_iff, !beq_eq in B.
      unfold leading_junk. tauto.
  - exists []. splits; auto. simpl. rewrite !orb_false_iff, !beq_neq in B.
    unfold leading_junk. tauto.
Qed.

Lemma runs_collapsed_in dots s o c : runs_collapsed dots s o -> In c o -> In c s.
Proof.
  induction 1 as [|d s o _ H IH|r d s o _ _ _ [Sd _] H IH]; intros I; [easy| |].
  - destruct I as [->|I]; [now left | right; auto].
  - apply in_app_iff. destruct I as [->|I]; [now left | right; auto].
Qed.

Theorem clean_wipeup_wiped s rt :
  nonul s -> in_memory s -> exists o, clean_wipeup s rt = Ok o /\ wiped rt s o.
Proof.
  intros N M. destruct (wipeup_skip_spec s) as (j & E & F & St).
  destruct (wipeup_out_spec rt (wipeup_skip s)) as [R _].
  exists (wipeup_out (search_of rt) (wipeup_skip s) None). split.
  - rewrite clean_wipeup_eq by assumption. f_equal. apply cstr_nonul. intros I.
    eapply runs_collapsed_in in I; [|exact R]. apply N. rewrite E. apply in_app_iff. now right.
  - exists j, (wipeup_skip s). auto.
Qed.

(** Properties of the specification itself. *)

Lemma runs_collapsed_head dots s o :
  runs_collapsed dots s o ->
  (starts_with (separator dots) s <-> starts_with (separator dots) o) /\
  (forall c, starts_with (eq c) o -> separator dots c \/ starts_with (eq c) s) /\
  (o = [] <-> s = []).
Proof.
  induction 1 as [|d s o Nd H IH|r d s o Nr Fr Ns [Id _] H IH].
  - simpl. splits; try tauto. 
  - simpl. splits; try tauto; try easy.
  - assert (Sd : separator dots d). { rewrite Forall_forall in Fr. now apply Fr. }
    destruct r as [|x r]; [easy|]. inversion Fr; subst. simpl. splits; try tauto; try easy.
    intros c ->. now left.
Qed.

Lemma runs_collapsed_no_adjacent dots s o :
  runs_collapsed dots s o -> no_adjacent (separator dots) o.
Proof.
  induction 1 as [|d s o Nd H IH|r d s o Nr Fr Ns [Id _] H IH].
  - constructor.
  - destruct o as [|e o]; [constructor|]. constructor; [tauto | assumption].
  - destruct o as [|e o]; [constructor|]. constructor; [|assumption].
    apply runs_collapsed_head in H. destruct H as [[_ H] _]. simpl in H. intros [_ He].
    now apply Ns, H.
Qed.

Lemma runs_collapsed_fixed dots o :
  no_adjacent (separator dots) o -> runs_collapsed dots o o.
Proof.
  assert (D : forall c, separator dots c \/ ~ separator dots c).
  { intros c. unfold separator. destruct (byte_dec c "-"%byte); [tauto|].
    destruct (byte_dec c "_"%byte); [tauto|]. destruct (byte_dec c "."%byte); [|tauto].
    destruct dots; [left; tauto | right; intuition congruence]. }
  assert (S1 : forall c, strongest c [c]).
  { intros c. split; [now left|]. intros x [->|[]]. lia. }
  induction 1 as [|c|c d s N H IH].
  - constructor.
  - destruct (D c) as [S|S].
    + apply (rc_run dots [c] c [] []); auto; try easy; constructor.
    + apply rc_char; [assumption | constructor].
  - destruct (D c) as [S|S].
    + apply (rc_run dots [c] c (d :: s) (d :: s)); auto; try easy.
    + now apply rc_char.
Qed.

Lemma no_adjacent_tail P c s : no_adjacent P (c :: s) -> no_adjacent P s.
Proof. inversion 1; subst; [constructor | assumption]. Qed.

(** The result of a collapse is determined. *)
Lemma runs_collapsed_fun dots s o1 o2 :
  runs_collapsed dots s o1 -> runs_collapsed dots s o2 -> o1 = o2.
Proof.
  assert (SE : forall c d, separator dots c -> separator dots d -> strength c = strength d -> c = d).
  { unfold separator. intros c d [->|[->|[_ ->]]] [->|[->|[_ ->]]] E; try reflexivity; vm_compute in E; discriminate. }
  intros H1. revert o2. induction H1 as [|c s o Nc H IH|r c s o Nr Fr Ns Sr H IH]; intros o2 H2.
  - remember (@nil byte) as z eqn:Ez in H2. destruct H2; [reflexivity | discriminate |].
    apply app_eq_nil in Ez. destruct Ez. contradiction.
  - remember (c :: s) as z eqn:Ez in H2.
    destruct H2 as [|c' s' o' Nc' H'|r' c' s' o' Nr' Fr' Ns' Sr' H']; [discriminate| |].
    + injection Ez as -> ->. f_equal. now apply IH.
    + destruct r' as [|x r']; [easy|]. simpl in Ez. injection Ez as -> _.
      inversion Fr'; subst. contradiction.
  - remember (r ++ s) as full eqn:Ef.
    destruct H2 as [|c' s' o' Nc' H'|r' c' s' o' Nr' Fr' Ns' Sr' H'].
    + destruct r; [easy | discriminate].
    + destruct r as [|x r]; [easy|]. simpl in Ef. injection Ef as -> _. inversion Fr; subst. contradiction.
    + assert (E : r' = r /\ s' = s).
      { clear - Ef Fr Fr' Ns Ns'. revert r' Fr' Ef. induction r as [|x r IHr]; intros [|y r'] Fr' Ef; simpl in *.
        - auto.
        - subst s. exfalso. apply Ns. simpl. inversion Fr'; subst. assumption.
        - subst s'. exfalso. apply Ns'. simpl. inversion Fr; subst. assumption.
        - injection Ef as -> Ef. inversion Fr; inversion Fr'; subst.
          destruct (IHr ltac:(assumption) r' ltac:(assumption) Ef) as [-> ->]. auto. }
      destruct E as [-> ->]. f_equal; [|now apply IH].
      rewrite Forall_forall in Fr.
      destruct Sr as [I M], Sr' as [I' M']. apply SE; auto.
      specialize (M c' I'). specialize (M' c I). lia.
Qed.

Lemma wiped_fun dots s o1 o2 : wiped dots s o1 -> wiped dots s o2 -> o1 = o2.
Proof.
  intros (j1 & b1 & -> & F1 & N1 & R1) (j2 & b2 & E & F2 & N2 & R2).
  assert (b1 = b2) as ->; [|now apply (runs_collapsed_fun dots b2)].
  clear R1 R2. revert j2 F2 E. induction j1 as [|x j1 IH]; intros [|y j2] F2 E; simpl in *.
  - assumption.
  - subst b1. exfalso. apply N1. simpl. now inversion F2.
  - subst b2. exfalso. apply N2. simpl. now inversion F1.
  - injection E as -> E. inversion F1; inversion F2; subst. eapply IH; eauto.
Qed.

Lemma wiped_idem dots s o : wiped dots s o -> wiped dots o o.
Proof.
  intros (j & b & -> & F & N & R). exists [], o. splits; auto.
  - intros J. apply N. pose proof (runs_collapsed_head dots b o R) as (H1 & H2 & H3).
    destruct o as [|c o]; [easy|]. simpl in J. simpl in *.
    destruct b as [|d b]; [destruct H3 as [_ H3]; now specialize (H3 eq_refl)|]. simpl in *.
    destruct (H2 c eq_refl) as [S| ->]; [|assumption].
    assert (Sd : separator dots d) by now apply H1.
    remember (d :: b) as z eqn:Ez in R. remember (c :: o) as w eqn:Ew in R.
    destruct R as [|c' s' o' Nc' H'|r' c' s' o' Nr' Fr' Ns' [Ic Mc] H']; [discriminate| |].
    + injection Ez as -> _. contradiction.
    + injection Ew as -> _. destruct r' as [|y r']; [easy|]. simpl in Ez. injection Ez as -> _.
      unfold leading_junk, separator in *.
      destruct Sd as [->|[->|[_ ->]]]; auto.
      (* the run contains a dot: its strongest member is the dot, not junk *)
      exfalso. specialize (Mc "."%byte (or_introl eq_refl)).
      destruct J as [->|[->| ->]]; vm_compute in Mc; lia.
  - apply runs_collapsed_fixed. eapply runs_collapsed_no_adjacent; eauto.
Qed.

(** ** lower *)

Lemma lower_loop_wrs ct cap s : forall acc,
  lower_loop ct cap s acc = wrs cap acc (map (fun c => if ct_isupper ct c then ct_tolower ct c else c) s).
Proof.
  induction s as [|c s IH]; intros acc; simpl; [reflexivity|].
  destruct (ct_isupper ct c).
  - destruct (wr cap acc (ct_tolower ct c)); simpl; auto.
  - destruct (wr cap acc c); simpl; auto.
Qed.

Theorem clean_lower_eq ct s :
  in_memory s ->
  clean_lower ct s = Ok (cstr (map (fun c => if ct_isupper ct c then ct_tolower ct c else c) s)).
Proof.
  intros M. unfold clean_lower. cbv zeta. rewrite lower_loop_wrs, write_all'.
  apply store_ok. rewrite map_length. unfold in_memory, strlen in *.
  change (2 ^ 60)%N with 1152921504606846976%N in M.
  rewrite size_t_small; [lia|]. change (2 ^ 64)%N with 18446744073709551616%N. lia.
Qed.

Lemma c_locale_lower c : (if ct_isupper c_locale c then ct_tolower c_locale c else c) = lower_spec c.
Proof.
  apply beq_eq. revert c. apply byte_sweep. vm_compute. reflexivity.
Qed.

Lemma lower_spec_nonul c : c <> NUL -> lower_spec c <> NUL.
Proof.
  intros C. apply beq_neq.
  assert (S : forall c, (if beq c NUL then true else negb (beq (lower_spec c) NUL)) = true).
  { apply byte_sweep. vm_compute. reflexivity. }
  specialize (S c). apply beq_neq in C. rewrite C in S. now apply negb_true_iff.
Qed.

Lemma lower_spec_idem c : lower_spec (lower_spec c) = lower_spec c.
Proof. apply beq_eq. revert c. apply byte_sweep. vm_compute. reflexivity. Qed.

Theorem clean_lower_c s : nonul s -> in_memory s -> clean_lower c_locale s = Ok (map lower_spec s).
Proof.
  intros N M. rewrite clean_lower_eq by assumption. f_equal.
  erewrite map_ext by (intros c; apply c_locale_lower).
  apply cstr_nonul. intros I. apply in_map_iff in I. destruct I as (c & E & I).
  apply (lower_spec_nonul c); [now apply (nonul_not_nul s) | assumption].
Qed.

(** ** max_length *)

Lemma strrchr_from_spec c s : forall before found,
  match strrchr_from c before s found with
  | Some (b, a) =>
      (found = Some (b, a) /\ ~ In c s) \/
      (exists mid rest, s = mid ++ c :: rest /\ b = rev mid ++ before /\ a = c :: rest /\ ~ In c rest)
  | None => found = None /\ ~ In c s
  end.
Proof.
  induction s as [|x s IH]; intros before found; simpl.
  - destruct found as [[b a]|]; auto.
  - specialize (IH (x :: before) (if beq x c then Some (before, x :: s) else found)).
    destruct (strrchr_from c (x :: before) s _) as [[b a]|].
    + destruct IH as [[E N] | (mid & rest & -> & -> & -> & N)].
      * destruct (beq x c) eqn:B.
        -- apply beq_eq in B. subst x. injection E as <- <-. right. exists [], s. auto.
        -- apply beq_neq in B. left. split; [assumption|]. intros [H|H]; auto.
      * right. exists (x :: mid), rest. simpl. splits; auto. now rewrite <- app_assoc.
    + destruct IH as [E N]. destruct (beq x c) eqn:B; [easy|].
      apply beq_neq in B. split; [assumption|]. intros [H|H]; auto.
Qed.

Lemma strrchr_spec s c :
  match strrchr s c with
  | Some (b, a) => exists rest, s = rev b ++ a /\ a = c :: rest /\ ~ In c rest
  | None => ~ In c s
  end.
Proof.
  unfold strrchr. pose proof (strrchr_from_spec c s [] None) as H.
  destruct (strrchr_from c [] s None) as [[b a]|].
  - destruct H as [[H _]|(mid & rest & -> & -> & -> & N)]; [easy|].
    exists rest. rewrite app_nil_r, rev_involutive. auto.
  - apply H.
Qed.

(** The walk back: finds the nearest dot within five characters that is not first. *)
Lemma second_ext_spec before : forall at_ dist ext mid,
  at_ = mid ++ ext -> length mid = dist -> ~ In dot mid -> (dist <= 5)%nat ->
  (exists stem mid', second_ext before at_ dist ext = dot :: mid' ++ ext /\
      rev before ++ at_ = stem ++ dot :: mid' ++ ext /\ rev before ++ mid = stem ++ dot :: mid' /\
      stem <> [] /\ ~ In dot mid' /\ (length mid' <= 4)%nat) \/
  (second_ext before at_ dist ext = ext /\
   forall stem mid', rev before ++ mid = stem ++ dot :: mid' -> stem <> [] -> ~ In dot mid' ->
      (4 < length mid')%nat).
Proof.
  induction before as [|c before IH]; intros at_ dist ext mid Ea Ld Nd L5; simpl.
  - right. split; [reflexivity|]. intros stem mid' E. simpl in E. exfalso. apply Nd.
    rewrite E. apply in_app_iff. right. now left.
  - destruct before as [|c2 before].
    + right. split; [reflexivity|]. intros stem mid' E Ns. simpl in E.
      destruct stem as [|x stem]; [easy|]. simpl in E. injection E as -> E.
      exfalso. apply Nd. rewrite E. apply in_app_iff. right. now left.
    + destruct (Nat.ltb_spec 5 (S dist)) as [L|L].
      * right. split; [reflexivity|]. intros stem mid' E Ns Nd'.
        assert (Lm : (length mid <= length mid')%nat); [|lia].
        destruct (le_lt_dec (length mid) (length mid')) as [|Lt]; [assumption|exfalso].
        (* the dot would lie inside mid *)
        apply Nd.
        assert (Sp : exists k, mid = k ++ dot :: mid').
        { clear - E Lt. revert mid Lt E. generalize (rev (c2 :: before) ++ [c]) as pre.
          intros pre. revert stem. induction pre as [|p pre IHp]; intros stem mid Lt E.
          - exists stem. exact E.
          - destruct stem as [|x stem]; simpl in E.
            + exfalso. injection E as _ E. apply (f_equal (@length byte)) in E.
              rewrite app_length in E. lia.
            + injection E as _ E. eapply IHp; eauto. }
        destruct Sp as [k ->]. apply in_app_iff. right. now left.
      * destruct (beq c ".") eqn:B.
        -- apply beq_eq in B. subst c. left.
           exists (rev (c2 :: before)), mid. subst at_. fold dot. splits; auto.
           ++ now rewrite <- app_assoc.
           ++ now rewrite <- app_assoc.
           ++ simpl. intros H. apply app_eq_nil in H. destruct H; discriminate.
           ++ lia.
        -- apply beq_neq in B.
           destruct (IH (c :: at_) (S dist) ext (c :: mid)) as [H|H].
           ++ now subst at_.
           ++ simpl. lia.
           ++ intros [H|H]; [now apply B | now apply Nd].
           ++ lia.
           ++ left. destruct H as (stem & mid' & E1 & E2 & E3 & R). exists stem, mid'.
              splits; try apply R.
              ** exact E1.
              ** rewrite <- app_assoc. exact E2.
              ** rewrite <- app_assoc. exact E3.
           ++ right. destruct H as [E1 H]. split; [exact E1|].
              intros stem mid' E. rewrite <- app_assoc in E. now apply H.
Qed.

Lemma dot_split_unique a b c d :
  a ++ dot :: b = c ++ dot :: d -> ~ In dot b -> ~ In dot d -> a = c /\ b = d.
Proof.
  intros E Nb Nd. revert c E. induction a as [|x a IH]; intros [|y c] E; simpl in E.
  - now injection E as ->.
  - injection E as _ E. subst b. exfalso. apply Nb. apply in_app_iff. right. now left.
  - injection E as _ E. subst d. exfalso. apply Nd. apply in_app_iff. right. now left.
  - injection E as -> E. destruct (IH c E) as [-> ->]. auto.
Qed.

Definition eff_max (m : N) : N := (if m =? 0 then 256 else m)%N.

Theorem clean_max_length_spec s m :
  in_memory s ->
  exists o, clean_max_length s m = Ok o /\
  (if (strlen s <=? eff_max m)%N then o = s
   else exists ext, kept_extension s ext /\
     ((ext <> [] /\ (eff_max m <= strlen ext)%N /\ o = s) \/
      ((strlen ext < eff_max m)%N /\
       o = firstn (N.to_nat (eff_max m) - length ext) s ++ ext))).
Proof.
  intros Hm. unfold clean_max_length.
  assert (Em : (if m <=? 0 then 256 else m)%N = eff_max m).
  { unfold eff_max. destruct (N.leb_spec m 0), (N.eqb_spec m 0); try reflexivity; lia. }
  cbv zeta. rewrite Em. clear Em. set (M := eff_max m) in *.
  assert (M1 : (0 < M)%N). { unfold M, eff_max. destruct (N.eqb_spec m 0); lia. }
  destruct (N.leb_spec (strlen s) M) as [L|L]; [now exists s|].
  unfold in_memory in Hm. change (2 ^ 60)%N with 1152921504606846976%N in Hm.
  pose proof (strrchr_spec s dot) as R. fold dot.
  destruct (strrchr s dot) as [[b a]|].
  2:{ exists (firstn (N.to_nat M) s). split; [reflexivity|]. exists [].
      split; [now constructor|]. right. split; [exact M1|].
      simpl. now rewrite Nat.sub_0_r, app_nil_r. }
  destruct R as (rest & Es & Ea & Nr).
  assert (LD : last_dot_suffix s (rev b) a) by (split; [assumption | exists rest; auto]).
  destruct (N.eqb_spec (strlen a) 1) as [L1|L1].
  { exists (firstn (N.to_nat M) s). split; [reflexivity|]. exists [].
    assert (rest = []). { subst a. unfold strlen in L1. simpl in L1. destruct rest; [reflexivity | simpl in L1; lia]. }
    subst rest a. split; [eapply ke_trailing; eauto|]. right. split; [exact M1|].
    simpl. now rewrite Nat.sub_0_r, app_nil_r. }
  assert (Na : a <> [dot]). { intros ->. now apply L1. }
  set (ext := second_ext b a 0 a).
  assert (KE : kept_extension s ext /\ exists stem, s = stem ++ ext /\ ext <> []).
  { unfold ext. destruct (second_ext_spec b a 0 a []) as [H|H]; auto; try lia.
    - destruct H as (stem & mid' & -> & E2 & E3 & N1 & N2 & N3). split.
      + rewrite app_nil_r in E3. apply (ke_double s stem mid' a); auto. now rewrite <- E3.
      + exists stem. split; [|easy]. rewrite Es. exact E2.
    - destruct H as [-> H]. split.
      + apply (ke_single s (rev b) a); auto. intros stem' mid E. apply H. now rewrite app_nil_r.
      + exists (rev b). split; [assumption|]. now subst a. }
  destruct KE as (KE & stem & Est & Nex).
  destruct (N.leb_spec M (strlen ext)) as [Lx|Lx].
  { exists s. split; [reflexivity|]. exists ext. split; [assumption|]. left. auto. }
  assert (C : size_t (M + 1) = (M + 1)%N).
  { apply size_t_small. change (2 ^ 64)%N with 18446744073709551616%N. lia. }
  rewrite C.
  destruct (N.leb_spec (N.of_nat (N.to_nat (M - strlen ext)) + strlen ext + 1) (M + 1)) as [_|Bad]; [|lia].
  eexists. split; [reflexivity|]. exists ext. split; [assumption|]. right. split; [assumption|].
  f_equal. rewrite firstn_firstn. f_equal. unfold strlen in *. lia.
Qed.

Lemma last_dot_fun s a b c d : last_dot_suffix s a b -> last_dot_suffix s c d -> a = c /\ b = d.
Proof.
  intros (E1 & e1 & -> & N1) (E2 & e2 & -> & N2). rewrite E1 in E2.
  apply dot_split_unique in E2; auto. destruct E2 as [-> ->]. auto.
Qed.

Lemma last_dot_in s a b : last_dot_suffix s a b -> In dot s.
Proof. intros (-> & e & -> & _). apply in_app_iff. right. now left. Qed.

(** The kept extension is unique. *)
Lemma kept_extension_fun s e1 e2 : kept_extension s e1 -> kept_extension s e2 -> e1 = e2.
Proof.
  intros H1 H2.
  destruct H1 as [N1|st1 D1|st1 m1 x1 D1 X1 S1 M1 L1|st1 x1 D1 X1 F1];
  destruct H2 as [N2|st2 D2|st2 m2 x2 D2 X2 S2 M2 L2|st2 x2 D2 X2 F2]; try reflexivity;
  try (exfalso; match goal with N : ~ In dot s, D : last_dot_suffix s _ _ |- _ =>
         apply N; eapply last_dot_in; exact D end);
  pose proof (last_dot_fun _ _ _ _ _ D1 D2) as [E1 E2]; subst; try contradiction.
  - apply dot_split_unique in E1; auto. destruct E1 as [-> ->]. reflexivity.
  - specialize (F2 st1 m1 eq_refl S1 M1). lia.
  - specialize (F1 st2 m2 eq_refl S2 M2). lia.
  - reflexivity.
Qed.

Lemma kept_extension_suffix s e : kept_extension s e -> exists stem, s = stem ++ e.
Proof.
  intros [N|st D|st m x D X S M L|st x D X F].
  - exists s. now rewrite app_nil_r.
  - exists s. now rewrite app_nil_r.
  - destruct D as (-> & _). exists st. now rewrite <- app_assoc.
  - destruct D as (-> & _). now exists st.
Qed.

(** ** Sizes decide the outcome *)

Lemma store_cases cap out :
  ((N.of_nat (length out) < cap)%N /\ store cap out = Ok (cstr out)) \/
  ((cap <= N.of_nat (length out))%N /\ store cap out = UB BufferOverflow).
Proof.
  unfold store. destruct (N.ltb_spec (N.of_nat (length out)) cap); auto.
Qed.

Lemma store_inv cap out o : store cap out = Ok o -> o = cstr out.
Proof. destruct (store_cases cap out) as [[_ ->]|[_ ->]]; congruence. Qed.

(** ** The legacy chain, byte by byte *)

Definition legacy_chain (c : byte) : str := flat_map iso8859_1_spec (cp1252_spec c).


Definition garbledb (c : byte) : bool :=
  ((0x80 <=? bN c) && (bN c <? 0xA0) && negb (existsb (N.eqb (bN c)) [0x81; 0x8D; 0x8F; 0x90; 0x9D]))%N.

Lemma garbledb_iff c : garbledb c = true <-> garbled c.
Proof.
  unfold garbledb, garbled. rewrite !andb_true_iff, N.leb_le, N.ltb_lt, negb_true_iff.
  rewrite <- not_true_iff_false, existsb_exists.
  split; intros [H1 H2]; split; auto; intros H; apply H2.
  - exists (bN c). split; [assumption | apply N.eqb_refl].
  - destruct H as (x & I & E). apply N.eqb_eq in E. now subst.
Qed.

Lemma legacy_chain_byte c :
  (~ garbled c -> legacy_chain c = legacy_spec c) /\
  (garbled c -> (length (legacy_spec c) < length (legacy_chain c))%nat) /\
  (length (legacy_spec c) <= length (legacy_chain c))%nat.
Proof.
  assert (S : forall c, (if garbledb c then (length (legacy_spec c) <? length (legacy_chain c))%nat
                         else str_eqb (legacy_chain c) (legacy_spec c)) = true).
  { apply byte_sweep. vm_compute. reflexivity. }
  specialize (S c). pose proof (garbledb_iff c) as G. destruct (garbledb c).
  - apply Nat.ltb_lt in S. splits; auto; [|lia]. intros H. exfalso. now apply H, G.
  - apply str_eqb_eq in S. rewrite S. splits; auto. intros H. now apply G in H.
Qed.

Lemma legacy_chain_length s :
  (length (flat_map legacy_spec s) <= length (flat_map legacy_chain s))%nat.
Proof.
  induction s as [|c s IH]; simpl; [lia|]. rewrite !app_length.
  pose proof (legacy_chain_byte c) as (_ & _ & H). lia.
Qed.

Lemma legacy_chain_exact s :
  flat_map legacy_chain s = flat_map legacy_spec s <-> Forall (fun c => ~ garbled c) s.
Proof.
  split.
  - intros E. induction s as [|c s IH]; [constructor|].
    pose proof (f_equal (@length byte) E) as L. simpl in L. rewrite !app_length in L.
    pose proof (legacy_chain_byte c) as (H1 & H2 & H3). pose proof (legacy_chain_length s).
    assert (NG : ~ garbled c). { intros G. specialize (H2 G). lia. }
    constructor; [assumption|]. apply IH. simpl in E. rewrite (H1 NG) in E. now apply app_inv_head in E.
  - intros F. apply flat_map_ext_in. intros c I. rewrite Forall_forall in F.
    apply (legacy_chain_byte c). now apply F.
Qed.

Lemma legacy_single c :
  (0x80 <= bN c < 0xA0)%N ->
  ((exists d, cp1252_spec c = [d] /\ (bN d < 128)%N) <-> ~ garbled c).
Proof.
  intros H.
  assert (S : forall c, (if ((0x80 <=? bN c) && (bN c <? 0xA0))%N then
     if garbledb c then match cp1252_spec c with [d] => negb (bN d <? 128)%N | _ => true end
     else match cp1252_spec c with [d] => (bN d <? 128)%N | _ => false end else true) = true).
  { apply byte_sweep. vm_compute. reflexivity. }
  specialize (S c). destruct H as [H1 H2]. apply N.leb_le in H1. apply N.ltb_lt in H2.
  rewrite H1, H2 in S. cbn [andb] in S. rewrite <- garbledb_iff.
  destruct (garbledb c).
  - split; [|intros G; now contradiction G].
    intros (d & E & L). rewrite E in S. apply N.ltb_lt in L. now rewrite L in S.
  - split; [easy|]. intros _. destruct (cp1252_spec c) as [|d [|]]; try discriminate.
    exists d. split; [reflexivity | now apply N.ltb_lt].
Qed.

(** ** Statements in terms of lookups *)

Lemma safe_char_lookup schar t c : safe_char schar t c = entry_or_default t (char_code schar c) c.
Proof.
  unfold safe_char, subst_char, entry_or_default.
  replace (char_key schar c) with (char_code schar c) by reflexivity.
  destruct (table_get t (char_code schar c)), (t_default t); reflexivity.
Qed.

Lemma iso_char_lookup t c :
  iso_char t c = if (bN c <? 128)%N then [c] else entry_or_default t (bN c) c.
Proof.
  unfold iso_char, subst_char, entry_or_default.
  destruct (bN c <? 128)%N, (table_get t (bN c)), (t_default t); reflexivity.
Qed.

Lemma flat_map_ext' (f g : byte -> str) s : (forall c, f c = g c) -> flat_map f s = flat_map g s.
Proof. intros H. apply flat_map_ext_in. auto. Qed.

Lemma safe_text_eq schar t s :
  flat_map (safe_char schar t) s = flat_map (fun c => entry_or_default t (char_code schar c) c) s.
Proof. apply flat_map_ext', safe_char_lookup. Qed.

Lemma iso_text_eq t s :
  flat_map (iso_char t) s =
  flat_map (fun c => if (bN c <? 128)%N then [c] else entry_or_default t (bN c) c) s.
Proof. apply flat_map_ext', iso_char_lookup. Qed.

Lemma clean_safe_exact schar s t :
  fits t s ->
  let out := flat_map (fun c => entry_or_default t (char_code schar c) c) s in
  clean_safe schar s (Some t) =
  if (strlen out <=? strlen s * N.of_nat (t_maxdata t))%N then Ok (cstr out) else UB BufferOverflow.
Proof.
  intros F out. rewrite clean_safe_eq, safe_text_eq, (table_cap_fits t s F). fold out.
  unfold store, strlen.
  destruct (N.ltb_spec (N.of_nat (length out)) (N.of_nat (length s) * N.of_nat (t_maxdata t) + 1)),
    (N.leb_spec (N.of_nat (length out)) (N.of_nat (length s) * N.of_nat (t_maxdata t))); try reflexivity; lia.
Qed.

Lemma clean_iso8859_1_exact s t :
  fits t s ->
  let out := flat_map (fun c => if (bN c <? 128)%N then [c] else entry_or_default t (bN c) c) s in
  clean_iso8859_1 s (Some t) =
  if (strlen out <=? strlen s * N.of_nat (t_maxdata t))%N then Ok (cstr out) else UB BufferOverflow.
Proof.
  intros F out. rewrite clean_iso8859_1_eq, iso_text_eq, (table_cap_fits t s F). fold out.
  unfold store, strlen.
  destruct (N.ltb_spec (N.of_nat (length out)) (N.of_nat (length s) * N.of_nat (t_maxdata t) + 1)),
    (N.leb_spec (N.of_nat (length out)) (N.of_nat (length s) * N.of_nat (t_maxdata t))); try reflexivity; lia.
Qed.

Lemma clean_safe_text schar s t o :
  text_table t -> nonul s -> clean_safe schar s (Some t) = Ok o ->
  o = flat_map (fun c => entry_or_default t (char_code schar c) c) s.
Proof.
  intros T N E. rewrite clean_safe_eq in E. apply store_inv in E. subst o.
  rewrite <- safe_text_eq. apply cstr_nonul, nonul_flat_map. intros c I.
  apply subst_char_nonul; [assumption | now apply (nonul_not_nul s)].
Qed.

Lemma clean_safe_concat schar a b t x y z :
  text_table t -> nonul a -> nonul b ->
  clean_safe schar a (Some t) = Ok x -> clean_safe schar b (Some t) = Ok y ->
  clean_safe schar (a ++ b) (Some t) = Ok z -> z = x ++ y.
Proof.
  intros T Na Nb Ea Eb Ez. apply clean_safe_text in Ea, Eb, Ez; auto.
  - subst. now rewrite flat_map_app.
  - now apply nonul_app.
Qed.

(** ** CGI *)

Lemma clean_uncgi_reads s o : in_memory s -> cgi_reads s o -> clean_uncgi s = Ok (cstr o).
Proof. intros M R. rewrite clean_uncgi_eq by assumption. now rewrite (cgi_reads_out s o R). Qed.

Lemma clean_uncgi_inverts s e : nonul s -> in_memory e -> cgi_encodes s e -> clean_uncgi e = Ok s.
Proof.
  intros N M E. rewrite (clean_uncgi_reads e s); [f_equal; now apply cstr_nonul | assumption |].
  now apply cgi_encodes_reads.
Qed.

Lemma clean_uncgi_cut s e r :
  nonul s -> in_memory (e ++ bs "%00" ++ r) -> cgi_encodes s e ->
  clean_uncgi (e ++ bs "%00" ++ r) = Ok s.
Proof.
  intros N M E. destruct (cgi_reads_total r) as [o R].
  assert (R0 : cgi_reads (bs "%00" ++ r) (NUL :: o)) by (apply (cr_escape NUL "0"%byte "0"%byte 0 0 r o); auto).
  rewrite (clean_uncgi_reads _ _ M (cgi_reads_app s e _ _ E R0)).
  f_equal. rewrite cstr_app by assumption. simpl. apply app_nil_r.
Qed.

Lemma clean_uncgi_plain s :
  nonul s -> in_memory s -> ~ In "%"%byte s -> ~ In "+"%byte s -> clean_uncgi s = Ok s.
Proof.
  intros N M P Q. apply clean_uncgi_inverts; auto. clear N M.
  induction s as [|c s IH]; [constructor|].
  apply cgi_plain.
  - intros ->. apply P. now left.
  - intros ->. apply Q. now left.
  - apply IH; intros I; [apply P | apply Q]; now right.
Qed.

Lemma clean_uncgi_shorter s : in_memory s -> exists o, clean_uncgi s = Ok o /\ (length o <= length s)%nat.
Proof.
  intros M. rewrite clean_uncgi_eq by assumption. eexists. split; [reflexivity|].
  pose proof (uncgi_out_length s). pose proof (cstr_length (uncgi_out s)). lia.
Qed.

(** ** wipeup *)

Lemma wiped_props dots s o :
  wiped dots s o ->
  ~ starts_with leading_junk o /\ no_adjacent (separator dots) o /\ wiped dots o o.
Proof.
  intros W. pose proof (wiped_idem dots s o W) as I. splits; auto.
  - destruct I as (j & b & E & F & N & R).
    intros H. destruct j as [|x j].
    + simpl in E. subst b. now apply N.
    + (* the fixed point has an empty junk prefix: lengths *)
      assert (L : (length o <= length b)%nat).
      { clear - R. induction R as [|c s o Nc H IH|r c s o Nr Fr Ns Sr H IH]; simpl; try lia.
        rewrite app_length. destruct r; [easy|]. simpl. lia. }
      rewrite E in L. rewrite app_length in L. simpl in L. lia.
  - destruct W as (j & b & E & F & N & R). eapply runs_collapsed_no_adjacent; eauto.
Qed.

Lemma clean_wipeup_all s rt :
  nonul s -> in_memory s ->
  exists o, clean_wipeup s rt = Ok o /\ wiped rt s o /\
    ~ starts_with leading_junk o /\ no_adjacent (separator rt) o /\ clean_wipeup o rt = Ok o.
Proof.
  intros N M. destruct (clean_wipeup_wiped s rt N M) as (o & E & W).
  pose proof (wiped_props rt s o W) as (P1 & P2 & P3).
  exists o. splits; auto.
  assert (No : nonul o).
  { intros I. apply N. destruct W as (j & b & -> & _ & _ & R).
    apply in_app_iff. right. eapply runs_collapsed_in; eauto. }
  assert (Lo : (length o <= length s)%nat).
  { destruct W as (j & b & -> & _ & _ & R). rewrite app_length.
    assert (length o <= length b)%nat; [|lia].
    clear - R. induction R as [|c s o Nc H IH|r c s o Nr Fr Ns Sr H IH]; simpl; try lia.
    rewrite app_length. destruct r; [easy|]. simpl. lia. }
  destruct (clean_wipeup_wiped o rt No) as (o' & E' & W').
  - unfold in_memory, strlen in *. lia.
  - rewrite E'. f_equal. eapply wiped_fun; eauto.
Qed.

(** ** max_length, summary *)

Lemma clean_max_length_all s m :
  in_memory s ->
  let limit := if (m =? 0)%N then 256%N else m in
  exists o, clean_max_length s m = Ok o /\
    ((strlen s <= limit)%N -> o = s) /\
    ((limit < strlen s)%N -> exists ext, kept_extension s ext /\
       ((limit <= strlen ext)%N -> o = s) /\
       ((strlen ext < limit)%N ->
          strlen o = limit /\ exists front, o = front ++ ext /\ front = firstn (length front) s)) /\
    clean_max_length o m = Ok o.
Proof.
  intros M limit. destruct (clean_max_length_spec s m M) as (o & E & H).
  change (eff_max m) with limit in H. exists o.
  assert (L1 : (0 < limit)%N). { unfold limit. destruct (N.eqb_spec m 0); lia. }
  destruct (N.leb_spec (strlen s) limit) as [L|L].
  { subst o. splits; auto. intros H. lia. }
  destruct H as (ext & K & [(Ne & Le & ->)|(Lt & ->)]).
  { splits; auto; try lia. intros _. exists ext. splits; auto. intros H. lia. }
  assert (Lf : length (firstn (N.to_nat limit - length ext) s) = (N.to_nat limit - length ext)%nat).
  { apply firstn_length_le. unfold strlen in *. lia. }
  assert (Lo : strlen (firstn (N.to_nat limit - length ext) s ++ ext) = limit).
  { unfold strlen in *. rewrite app_length, Lf. lia. }
  splits; auto; try lia.
  - intros _. exists ext. splits; auto; [intros H; lia|]. intros _. split; [assumption|].
    eexists. split; [reflexivity|]. now rewrite Lf.
  - destruct (clean_max_length_spec (firstn (N.to_nat limit - length ext) s ++ ext) m) as (o & E' & H).
    + unfold in_memory in *. lia.
    + change (eff_max m) with limit in H. rewrite Lo in H. rewrite N.leb_refl in H. now rewrite E', H.
Qed.

(** ** Remaining summaries *)

Lemma safe_output_clean s : Forall (fun c => ~ difficult c) (flat_map safe_spec s).
Proof.
  apply Forall_forall. intros d I. apply in_flat_map in I. destruct I as (c & _ & I).
  eapply safe_spec_clean; eauto.
Qed.

Lemma clean_safe_fixed sc o :
  nonul o -> in_memory o -> Forall (fun c => ~ difficult c) o ->
  clean_safe sc o (Some load_builtin_safe_table) = Ok o.
Proof.
  intros N M F. rewrite builtin_safe_eq by assumption. f_equal. apply flat_map_id.
  intros c I. apply safe_spec_keep. rewrite Forall_forall in F. now apply F.
Qed.

Lemma safe_spec_length c : (length (safe_spec c) <= 5)%nat.
Proof.
  apply Nat.leb_le. revert c. apply (byte_sweep (fun c => (length (safe_spec c) <=? 5)%nat)).
  vm_compute. reflexivity.
Qed.

Lemma safe_out_in_memory s : (strlen s < 2 ^ 57)%N -> in_memory (flat_map safe_spec s).
Proof.
  unfold in_memory, strlen. change (2 ^ 57)%N with 144115188075855872%N.
  change (2 ^ 60)%N with 1152921504606846976%N. intros M.
  pose proof (flat_map_length_le safe_spec 5 s safe_spec_length). lia.
Qed.

Lemma safe_twice sc s :
  nonul s -> (strlen s < 2 ^ 57)%N ->
  clean_safe sc (flat_map safe_spec s) (Some load_builtin_safe_table) = Ok (flat_map safe_spec s).
Proof.
  intros N M. apply clean_safe_fixed.
  - apply flat_map_nonul_in; auto using safe_spec_nonul.
  - now apply safe_out_in_memory.
  - apply safe_output_clean.
Qed.

Lemma high_not_difficult c : (128 <= bN c)%N -> ~ difficult c.
Proof.
  intros H D. apply difficultb_iff in D.
  assert (S : forall c, (if (128 <=? bN c)%N then negb (difficultb c) else true) = true).
  { apply byte_sweep. vm_compute. reflexivity. }
  specialize (S c). apply N.leb_le in H. now rewrite H, D in S.
Qed.

Lemma builtin_roomy :
  Forall roomy [load_builtin_safe_table; load_builtin_iso8859_1_table; load_builtin_cp1252_table;
                load_builtin_unicode_table].
Proof.
  apply Forall_cons; [apply roomy_builtin_safe|].
  apply Forall_cons; [apply roomy_builtin_iso8859_1|].
  apply Forall_cons; [apply roomy_builtin_cp1252|].
  apply Forall_cons; [|apply Forall_nil].
  split; [vm_compute; lia | intros d H; vm_compute in H; discriminate].
Qed.

Lemma overruns :
  (exists t, built t /\ forall signed_char, clean_safe signed_char (bs "a") (Some t) = UB BufferOverflow) /\
  (exists t, built t /\ (1 <= t_maxdata t)%nat /\
     forall signed_char, clean_safe signed_char (bs "ab") (Some t) = UB BufferOverflow).
Proof.
  split.
  - exists (table_init 500). split; [constructor|]. intros []; vm_compute; reflexivity.
  - eexists. split.
    { apply (built_default (fst (table_put (table_init 3) 120 (bs "y"))) (Some (bs "--"))).
      apply built_put, built_init. }
    split; [vm_compute; lia|]. intros []; vm_compute; reflexivity.
Qed.

Lemma legacy_chain_iff s :
  nonul s -> (strlen s < 2 ^ 58)%N ->
  ((do x <- clean_iso8859_1 s (Some load_builtin_cp1252_table);
    clean_iso8859_1 x (Some load_builtin_iso8859_1_table)) = Ok (flat_map legacy_spec s)
   <-> Forall (fun c => ~ garbled c) s).
Proof.
  intros N M. rewrite legacy_chain_eq by assumption. rewrite <- legacy_chain_exact. unfold legacy_chain.
  split; [now intros [= E] | now intros ->].
Qed.

Lemma clean_lower_agree ct s :
  (forall c, ct_isupper ct c = ct_isupper c_locale c) ->
  (forall c, ct_isupper c_locale c = true -> ct_tolower ct c = ct_tolower c_locale c) ->
  nonul s -> in_memory s -> clean_lower ct s = Ok (map lower_spec s).
Proof.
  intros H1 H2 N M. rewrite <- (clean_lower_c s N M), !clean_lower_eq by assumption. do 2 f_equal.
  apply map_ext. intros c. rewrite H1. destruct (ct_isupper c_locale c) eqn:E; [now apply H2 | reflexivity].
Qed.

Lemma clean_lower_twice s :
  nonul s -> in_memory s ->
  exists o, clean_lower c_locale s = Ok o /\ length o = length s /\ clean_lower c_locale o = Ok o.
Proof.
  intros N M. exists (map lower_spec s). splits.
  - now apply clean_lower_c.
  - apply map_length.
  - rewrite clean_lower_c.
    + rewrite map_map. f_equal. apply map_ext, lower_spec_idem.
    + intros I. apply in_map_iff in I. destruct I as (c & E & I).
      apply (lower_spec_nonul c); [now apply (nonul_not_nul s) | assumption].
    + unfold in_memory, strlen in *. now rewrite map_length.
Qed.

Lemma safe_idempotent sc s o :
  nonul s -> (strlen s < 2 ^ 57)%N ->
  clean_safe sc s (Some load_builtin_safe_table) = Ok o ->
  clean_safe sc o (Some load_builtin_safe_table) = Ok o.
Proof.
  intros N M E. rewrite builtin_safe_eq in E; [|assumption|].
  - injection E as <-. now apply safe_twice.
  - unfold in_memory. change (2 ^ 57)%N with 144115188075855872%N in M.
    change (2 ^ 60)%N with 1152921504606846976%N. lia.
Qed.
