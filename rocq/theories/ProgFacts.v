(** * Reasoning about programs: invariants along all executions *)

From Verif Require Import Base BaseFacts Prog.

Section wp.
  Context {S : Type}.
  Variable step : S -> forall c, answer c -> S -> Prop.
  Variable interference : S -> S -> Prop.
  (** The invariant, on the calls done so far (latest first) and the state. *)
  Variable I : list event -> S -> Prop.
  (** What must hold whenever a call is about to be issued. *)
  Variable J : list event -> S -> call -> Prop.

  Fixpoint wp {A} (p : prog A) (Q : A -> list event -> S -> Prop) (tr : list event) (s : S) : Prop :=
    I tr s /\
    match p with
    | Ret a => Q a tr s
    | Stop _ => True
    | Call c k =>
      J tr s c /\
      forall s0 r s1, interference s s0 -> step s0 c r s1 -> wp (k r) Q (Ev c r :: tr) s1
    end.

  Lemma wp_inv {A} (p : prog A) Q tr s : wp p Q tr s -> I tr s.
  Proof. destruct p; simpl; tauto. Qed.

  Lemma wp_sound {A} (p : prog A) Q tr s tr' s' p' :
    wp p Q tr s -> runs step interference p s tr' s' p' -> wp p' Q (rev tr' ++ tr) s'.
  Proof.
    revert tr s tr'. induction p as [a|w|c k IH]; intros tr s tr' W R; simpl in R.
    - destruct R as [(-> & -> & ->)|[]]. exact W.
    - destruct R as [(-> & -> & ->)|[]]. exact W.
    - destruct R as [(-> & -> & ->)|(s0 & r & s1 & t & E & St & -> & R)]; [exact W|].
      destruct W as (_ & _ & W). specialize (W s0 r s1 E St).
      simpl. rewrite <- app_assoc. simpl. eapply IH; eauto.
  Qed.

  Lemma wp_mono {A} (p : prog A) (Q Q' : A -> list event -> S -> Prop) tr s :
    (forall a tr s, I tr s -> Q a tr s -> Q' a tr s) -> wp p Q tr s -> wp p Q' tr s.
  Proof.
    intros H. revert tr s. induction p as [a|w|c k IH]; intros tr s [Hi W]; simpl; split; auto.
    destruct W as [Hj W]. split; auto. intros s0 r s1 E St. apply IH. eauto.
  Qed.

  Lemma wp_bind {A B} (p : prog A) (f : A -> prog B) Q tr s :
    wp p (fun a tr s => wp (f a) Q tr s) tr s -> wp (pbind p f) Q tr s.
  Proof.
    revert tr s. induction p as [a|w|c k IH]; intros tr s [Hi W]; simpl; auto.
    destruct W as [Hj W]. splits; auto. intros s0 r s1 E St. apply IH. eauto.
  Qed.

  Lemma wp_lift {A} (r : res A) (Q : A -> list event -> S -> Prop) tr s :
    I tr s -> (forall a, r = Ok a -> Q a tr s) -> wp (lift r) Q tr s.
  Proof. intros Hi H. destruct r; simpl; auto. Qed.

  Lemma wp_ret {A} (a : A) (Q : A -> list event -> S -> Prop) tr s : I tr s -> Q a tr s -> wp (Ret a) Q tr s.
  Proof. simpl. auto. Qed.

  Lemma wp_call {A} c (k : answer c -> prog A) Q tr s :
    I tr s -> J tr s c ->
    (forall s0 r s1, interference s s0 -> step s0 c r s1 -> wp (k r) Q (Ev c r :: tr) s1) ->
    wp (Call c k) Q tr s.
  Proof. simpl. auto. Qed.
End wp.

(** Every state along a run satisfies the invariant. *)
Lemma runs_inv {S A} step interference (I : list event -> S -> Prop) J (p : prog A) Q s tr s' p' :
  wp step interference I J p Q [] s -> runs step interference p s tr s' p' -> I (rev tr) s'.
Proof.
  intros W R. pose proof (wp_sound _ _ _ _ _ _ _ _ _ _ _ W R) as W'. rewrite app_nil_r in W'.
  now apply wp_inv in W'.
Qed.

(** What holds when a call is about to be issued. *)
Lemma runs_pending {S A} step interference (I : list event -> S -> Prop) J (p : prog A) Q s tr s' c k :
  wp step interference I J p Q [] s -> runs step interference p s tr s' (Call c k) -> J (rev tr) s' c.
Proof.
  intros W R. pose proof (wp_sound _ _ _ _ _ _ _ _ _ _ _ W R) as W'. rewrite app_nil_r in W'.
  now destruct W' as (_ & H & _).
Qed.

(** What holds at the end of a complete run. *)
Lemma runs_post {S A} step interference (I : list event -> S -> Prop) J (p : prog A) Q s tr s' a :
  wp step interference I J p Q [] s -> runs step interference p s tr s' (Ret a) -> Q a (rev tr) s'.
Proof.
  intros W R. pose proof (wp_sound _ _ _ _ _ _ _ _ _ _ _ W R) as W'. rewrite app_nil_r in W'.
  now destruct W' as [_ W'].
Qed.

Lemma runs_app {S A B} step interference (p : prog A) (f : A -> prog B) (s : S) t1 s1 a t2 s2 q :
  runs step interference p s t1 s1 (Ret a) -> runs step interference (f a) s1 t2 s2 q ->
  runs step interference (pbind p f) s (t1 ++ t2) s2 q.
Proof.
  revert s t1. induction p as [x|w|c k IH]; intros s t1 R1 R2; simpl in R1.
  - destruct R1 as [(-> & -> & E)|[]]. injection E as ->. exact R2.
  - destruct R1 as [(_ & _ & E)|[]]. discriminate.
  - destruct R1 as [(_ & _ & E)|(s0 & r & s1' & t & E & St & -> & R)]; [discriminate|].
    simpl. right. exists s0, r, s1', (t ++ t2). splits; auto.
Qed.

(** A call in the middle of a trace was about to be issued there. *)
Lemma runs_split {S A} step interference (p : prog A) (s : S) t1 c r t2 s' p' :
  runs step interference p s (t1 ++ Ev c r :: t2) s' p' ->
  exists s1 k s0 s2, runs step interference p s t1 s1 (Call c k) /\ interference s1 s0 /\ step s0 c r s2 /\
    runs step interference (k r) s2 t2 s' p'.
Proof.
  revert s t1. induction p as [a|w|c0 k IH]; intros s t1 R; simpl in R.
  - destruct R as [(E & _)|[]]. destruct t1; discriminate.
  - destruct R as [(E & _)|[]]. destruct t1; discriminate.
  - destruct R as [(E & _)|(s0 & r0 & s1 & t & E & St & Et & R)]; [destruct t1; discriminate|].
    destruct t1 as [|e t1]; simpl in Et.
    + assert (Ee : Ev c r = Ev c0 r0) by (now apply (f_equal (hd (Ev c r))) in Et).
      apply (f_equal (@tl event)) in Et. simpl in Et. subst t. clear IH.
      change (match Ev c r with Ev c r => exists s1 k0 s0 s2,
        runs step interference (Call c0 k) s [] s1 (Call c k0) /\ interference s1 s0 /\ step s0 c r s2 /\
        runs step interference (k0 r) s2 t2 s' p' end).
      rewrite Ee. exists s, k, s0, s1. splits; auto. simpl. auto.
    + assert (Ee : e = Ev c0 r0) by (now apply (f_equal (hd e)) in Et).
      apply (f_equal (@tl event)) in Et. simpl in Et. subst e t.
      destruct (IH r0 s1 t1 R) as (a1 & a2 & a3 & a4 & R1 & X1 & X2 & X3).
      exists a1, a2, a3, a4. splits; auto. simpl. right. exists s0, r0, s1, t1. splits; auto.
Qed.

(** Every prefix of a run is a run. *)
Lemma runs_prefix {S A} step interference (p : prog A) (s : S) t1 t2 s' p' :
  runs step interference p s (t1 ++ t2) s' p' ->
  exists s1 p1, runs step interference p s t1 s1 p1 /\ runs step interference p1 s1 t2 s' p'.
Proof.
  revert s t1. induction p as [a|w|c k IH]; intros s t1 R; simpl in R.
  - destruct R as [(E & -> & ->)|[]]. apply app_eq_nil in E. destruct E as [-> ->].
    exists s, (Ret a). simpl. auto.
  - destruct R as [(E & -> & ->)|[]]. apply app_eq_nil in E. destruct E as [-> ->].
    exists s, (Stop w). simpl. auto.
  - destruct t1 as [|e t1].
    + exists s, (Call c k). simpl. auto.
    + destruct R as [(E & _)|(s0 & r0 & s1 & t & E & St & Et & R)]; [discriminate|].
      assert (Ee : e = Ev c r0) by (now apply (f_equal (hd e)) in Et).
      apply (f_equal (@tl event)) in Et. simpl in Et. subst e t.
      destruct (IH r0 s1 t1 R) as (a1 & p1 & R1 & R2).
      exists a1, p1. split; auto. simpl. right. exists s0, r0, s1, t1. splits; auto.
Qed.

(** Any run is in particular a path through the program. *)
Lemma runs_trace {S A} step interference (p : prog A) (s : S) tr s' p' :
  runs step interference p s tr s' p' -> trace_of p tr p'.
Proof.
  unfold trace_of. revert s tr. induction p as [a|w|c k IH]; intros s tr R; simpl in *.
  - destruct R as [(-> & -> & ->)|[]]. auto.
  - destruct R as [(-> & -> & ->)|[]]. auto.
  - destruct R as [(-> & -> & ->)|(s0 & r & s1 & t & E & St & -> & R)]; [auto|].
    right. exists tt, r, tt, t. unfold alone, anything. splits; eauto.
Qed.

Lemma runs_here {S A} (step : S -> forall c, answer c -> S -> Prop) (interference : S -> S -> Prop) (p : prog A) s :
  runs step interference p s [] s p.
Proof. destruct p; simpl; auto. Qed.

Lemma runs_call {S A} (step : S -> forall c, answer c -> S -> Prop) (interference : S -> S -> Prop)
    c (k : answer c -> prog A) s s0 r s1 tr s' p' :
  interference s s0 -> step s0 c r s1 -> runs step interference (k r) s1 tr s' p' ->
  runs step interference (Call c k) s (Ev c r :: tr) s' p'.
Proof. intros E St R. simpl. right. exists s0, r, s1, tr. auto. Qed.
