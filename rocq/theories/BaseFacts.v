(** * Facts about the shared vocabulary *)

From Verif Require Import Base.

Lemma beq_eq a b : beq a b = true <-> a = b.
Proof. unfold beq. split; [apply Byte.byte_dec_bl | intros ->; now apply Byte.byte_dec_lb]. Qed.

Lemma beq_refl a : beq a a = true.
Proof. now apply beq_eq. Qed.

Lemma beq_neq a b : beq a b = false <-> a <> b.
Proof.
  split.
  - intros H ->. now rewrite beq_refl in H.
  - intros H. destruct (beq a b) eqn:E; [|reflexivity]. now apply beq_eq in E.
Qed.

Lemma byte_dec (a b : byte) : {a = b} + {a <> b}.
Proof. destruct (beq a b) eqn:E; [left; now apply beq_eq | right; now apply beq_neq]. Defined.

Lemma str_eqb_eq a b : str_eqb a b = true <-> a = b.
Proof.
  revert b; induction a as [|x a IH]; intros [|y b]; simpl; try easy.
  rewrite andb_true_iff, beq_eq, IH. split; [now intros [-> ->] | now intros [= -> ->]].
Qed.

Lemma str_eqb_refl a : str_eqb a a = true.
Proof. now apply str_eqb_eq. Qed.

Lemma str_eqb_neq a b : str_eqb a b = false <-> a <> b.
Proof.
  split.
  - intros H ->. now rewrite str_eqb_refl in H.
  - intros H. destruct (str_eqb a b) eqn:E; [|reflexivity]. now apply str_eqb_eq in E.
Qed.

Lemma bN_lt b : (bN b < 256)%N.
Proof. unfold bN. pose proof (Byte.to_N_bounded b). lia. Qed.

Lemma Nb_bN b : Nb (bN b) = b.
Proof.
  unfold Nb. rewrite N.mod_small by apply bN_lt. unfold bN. now rewrite Byte.of_to_N.
Qed.

Lemma bN_Nb n : (n < 256)%N -> bN (Nb n) = n.
Proof.
  intros H. unfold Nb. rewrite N.mod_small by assumption.
  destruct (Byte.of_N n) eqn:E.
  - now apply Byte.to_of_N in E.
  - apply Byte.of_N_None_iff in E. lia.
Qed.

Lemma bN_inj a b : bN a = bN b -> a = b.
Proof. intros H. rewrite <- (Nb_bN a), <- (Nb_bN b). now rewrite H. Qed.

Lemma cstr_app a b : nonul a -> cstr (a ++ b) = a ++ cstr b.
Proof.
  unfold nonul. induction a as [|x a IH]; intros H; [reflexivity|].
  simpl. destruct (beq x NUL) eqn:E.
  - apply beq_eq in E. subst. exfalso. apply H. now left.
  - f_equal. apply IH. intros I. apply H. now right.
Qed.

Lemma cstr_nonul a : nonul a -> cstr a = a.
Proof. intros H. rewrite <- (app_nil_r a) at 1. rewrite cstr_app by assumption. apply app_nil_r. Qed.

Lemma nonul_cstr a : nonul (cstr a).
Proof.
  unfold nonul. induction a as [|x a IH]; simpl; [easy|].
  destruct (beq x NUL) eqn:E; simpl; [easy|].
  apply beq_neq in E. intros [H|H]; [now subst | now apply IH].
Qed.

Lemma cstr_app_nul a : cstr (a ++ [NUL]) = cstr a.
Proof.
  induction a as [|x a IH]; [reflexivity|].
  simpl. destruct (beq x NUL); [reflexivity | now rewrite IH].
Qed.

Lemma cstr_prefix a : exists b, a = cstr a ++ b.
Proof.
  induction a as [|x a [b IH]]; [now exists []|].
  simpl. destruct (beq x NUL); [now exists (x :: a) | exists b; simpl; now rewrite <- IH].
Qed.

Lemma cstr_length a : (length (cstr a) <= length a)%nat.
Proof. destruct (cstr_prefix a) as [b H]. rewrite H at 2. rewrite app_length. lia. Qed.

Lemma nonul_app a b : nonul (a ++ b) <-> nonul a /\ nonul b.
Proof. unfold nonul. rewrite in_app_iff. tauto. Qed.

Lemma nonul_cons a b : nonul (a :: b) <-> a <> NUL /\ nonul b.
Proof. unfold nonul. simpl. intuition congruence. Qed.

Lemma nonul_nil : nonul [].
Proof. easy. Qed.

(** Membership decided by a closed boolean, so that side conditions on literal
    strings are settled by computation. *)
Lemma nonul_dec s : forallb (fun c => negb (beq c NUL)) s = true -> nonul s.
Proof.
  intros H I. rewrite forallb_forall in H. apply H in I. now rewrite beq_refl in I.
Qed.

Lemma nonul_iff s : nonul s <-> forallb (fun c => negb (beq c NUL)) s = true.
Proof.
  split; [|apply nonul_dec]. intros H. apply forallb_forall. intros x I.
  apply negb_true_iff, beq_neq. intros ->. now apply H.
Qed.

(** ** Writing *)

Lemma wr_ok cap acc b : (N.of_nat (length acc) < cap)%N -> wr cap acc b = Ok (b :: acc).
Proof. intros H. unfold wr. apply N.ltb_lt in H. now rewrite H. Qed.

Lemma wr_over cap acc b : (cap <= N.of_nat (length acc))%N -> wr cap acc b = UB BufferOverflow.
Proof. intros H. unfold wr. apply N.ltb_ge in H. now rewrite H. Qed.

Lemma wrs_spec cap acc s :
  (N.of_nat (length acc) <= cap)%N ->
  wrs cap acc s = if (N.of_nat (length acc + length s) <=? cap)%N
                  then Ok (rev s ++ acc) else UB BufferOverflow.
Proof.
  revert acc. induction s as [|b s IH]; intros acc H; simpl.
  - rewrite Nat.add_0_r. apply N.leb_le in H. now rewrite H.
  - destruct (N.ltb_spec (N.of_nat (length acc)) cap) as [L|L].
    + rewrite wr_ok by assumption. simpl. rewrite IH by (simpl; lia).
      simpl. rewrite <- app_assoc. simpl.
      replace (length acc + S (length s))%nat with (S (length acc + length s)) by lia.
      reflexivity.
    + rewrite wr_over by assumption. simpl.
      destruct (N.leb_spec (N.of_nat (length acc + S (length s))) cap); [lia | reflexivity].
Qed.

Lemma wrs_ok cap acc s :
  (N.of_nat (length acc + length s) <= cap)%N -> wrs cap acc s = Ok (rev s ++ acc).
Proof.
  intros H. rewrite wrs_spec by lia. apply N.leb_le in H. now rewrite H.
Qed.

Lemma finish_ok cap acc :
  (N.of_nat (length acc) < cap)%N -> finish cap acc = Ok (cstr (rev acc)).
Proof.
  intros H. unfold finish. rewrite wr_ok by assumption. simpl. now rewrite cstr_app_nul.
Qed.

Lemma finish_over cap acc :
  (cap <= N.of_nat (length acc))%N -> finish cap acc = UB BufferOverflow.
Proof. intros H. unfold finish. now rewrite wr_over. Qed.

Lemma size_t_small n : (n < 2 ^ 64)%N -> size_t n = n.
Proof. apply N.mod_small. Qed.

(** Case analysis over all byte values for a decidable statement. *)
Definition all_bytes : list byte :=
  map (fun n => Nb (N.of_nat n)) (seq 0 256).

Lemma all_bytes_in b : In b all_bytes.
Proof.
  unfold all_bytes. apply in_map_iff. exists (N.to_nat (bN b)). split.
  - now rewrite N2Nat.id, Nb_bN.
  - apply in_seq. pose proof (bN_lt b). lia.
Qed.

Lemma byte_sweep (P : byte -> bool) : forallb P all_bytes = true -> forall b, P b = true.
Proof. intros H b. rewrite forallb_forall in H. apply H, all_bytes_in. Qed.

(** Split conjunctions only (not records). *)
Ltac splits := repeat match goal with |- _ /\ _ => split end.
