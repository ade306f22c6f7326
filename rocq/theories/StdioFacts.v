(** * Facts about the stdio functions *)

From Verif Require Import Base BaseFacts Stdio.

Local Open Scope nat_scope.

(** ** fgets *)

Lemma fgets_bytes_spec room : forall input b r, fgets_bytes room input = (b, r) ->
  input = b ++ r /\ length b <= room /\
  ((exists t, b = t ++ [newline] /\ ~ In newline t) \/ (~ In newline b /\ (length b = room \/ r = []))).
Proof.
  induction room as [|room IH]; intros input b r E; simpl in E.
  { injection E as <- <-. splits; auto. }
  destruct input as [|c input]; [injection E as <- <-; splits; simpl; auto; lia|].
  destruct (beq c newline) eqn:Ec.
  - apply beq_eq in Ec. subst c. injection E as <- <-. splits; auto.
    + simpl. lia.
    + left. exists []. auto.
  - destruct (fgets_bytes room input) as [p q] eqn:F. injection E as <- <-. apply beq_neq in Ec.
    destruct (IH _ _ _ F) as (-> & L & H). splits; auto.
    + simpl. lia.
    + destruct H as [(t & -> & N)|[N H]].
      * left. exists (c :: t). split; auto. intros [X|X]; auto.
      * right. split; [intros [X|X]; auto|]. simpl. destruct H; auto.
Qed.

Lemma fgets_line room t r : length t < room -> ~ In newline t -> fgets_bytes room (t ++ newline :: r) = (t ++ [newline], r).
Proof.
  revert room. induction t as [|c t IH]; intros [|room] L N; simpl in L; try lia.
  - reflexivity.
  - simpl. destruct (beq c newline) eqn:E; [apply beq_eq in E; subst; exfalso; apply N; now left|].
    rewrite IH; auto. lia. intros X. apply N. now right.
Qed.

Lemma fgets_full b : forall r, ~ In newline b -> fgets_bytes (length b) (b ++ r) = (b, r).
Proof.
  induction b as [|c b IH]; intros r N; simpl; [now destruct r|].
  destruct (beq c newline) eqn:E; [apply beq_eq in E; subst; exfalso; apply N; now left|].
  rewrite IH; auto. intros X. apply N. now right.
Qed.

Lemma fgets_last room : forall b, length b <= room -> ~ In newline b -> fgets_bytes room b = (b, []).
Proof.
  induction room as [|room IH]; intros [|c b] L N; simpl in *; auto; try lia.
  destruct (beq c newline) eqn:E; [apply beq_eq in E; subst; exfalso; apply N; now left|].
  rewrite IH; auto. lia.
Qed.

