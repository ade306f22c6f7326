(** * Playing a program in a file system

    A way to compute one particular execution, for concrete examples: every call is
    answered in the most favourable way, and readdir answers according to a script. *)

From Verif Require Import Base BaseFacts Prog ProgFacts FS FSProofs.

Fixpoint not_below (t : tree) (i : inode) (n : nat) (d : inode) : bool :=
  negb (inode_eqb d i) &&
  (inode_eqb (parent t d) d || match n with O => false | S n => not_below t i n (parent t d) end).

Definition rename_do (w : world) (t : tree) (old new : str) : option tree :=
  match place w t old, place w t new with
  | Some (d1, n1, _), Some (d2, n2, _) =>
    if dot_name n1 || dotdot_name n1 || dot_name n2 || dotdot_name n2 then None
    else match lookup w t d1 n1 with
    | None => None
    | Some i =>
      if is_dir w d2 && searchable w d2 &&
         (negb (trailing_slash old || trailing_slash new) || is_dir w i) && (fst d1 =? fst d2)%N
      then
        match lookup w t d2 n2 with
        | None => if negb (is_dir w i) || not_below t i 9 d2 then Some (move w t d1 n1 d2 n2 i) else None
        | Some j =>
          if inode_eqb i j then
            if inode_eqb d1 d2 && str_eqb (fold_name w d1 n1) (fold_name w d1 n2)
            then Some (move w t d1 n1 d2 n2 i)
            else Some t
          else if is_dir w i || is_dir w j then None
          else Some (move w (unlink w t d2 n2) d1 n1 d2 n2 i)
        end
      else None
    end
  | _, _ => None
  end.

(** The answer to a call, the new tree, the next free handle, the rest of the script. *)
Definition reply (w : world) (t : tree) (h : N) (script : list (option str)) (c : call)
  : option (answer c * tree * N * list (option str)) :=
  match c return option (answer c * tree * N * list (option str)) with
  | Lstat p =>
    Some (match lstat_inode w t p with Some i => inl (stat_of w t i) | None => inr (bs "No such file or directory") end, t, h, script)
  | Rename old new =>
    match rename_do w t old new with
    | Some t' => Some (None, t', h, script)
    | None => Some (Some (bs "Operation not permitted"), t, h, script)
    end
  | Opendir p =>
    match walk w t (max_symlinks w) (start_of w p) (components p) with
    | Some (i, _) => if is_dir w i then Some (Opened h, t, (h + 1)%N, script) else None
    | None => None
    end
  | Readdir _ =>
    match script with
    | None :: rest => Some (None, t, h, rest)
    | Some n :: rest =>
      if negb (str_eqb n []) && forallb (fun c => negb (beq c "/") && negb (beq c "000")) n && (length n <=? 255)%nat
      then Some (Some n, t, h, rest) else None
    | [] => None
    end
  | Closedir _ => Some (tt, t, h, script)
  | Print _ _ => Some (tt, t, h, script)
  | ReadStream _ => None
  end.

Fixpoint play {A} (w : world) (p : prog A) (t : tree) (h : N) (script : list (option str))
  : list event * tree * prog A :=
  match p with
  | Call c k =>
    match reply w t h script c with
    | Some (r, t', h', script') =>
      let '(tr, t2, p2) := play w (k r) t' h' script' in (Ev c r :: tr, t2, p2)
    | None => ([], t, p)
    end
  | _ => ([], t, p)
  end.

Lemma not_below_sound t i d : below t i d -> forall n, not_below t i n d = false.
Proof.
  induction 1 as [|d B IH]; intros n.
  - destruct n; simpl; now rewrite inode_eqb_refl.
  - destruct n; simpl.
    + destruct (inode_eqb (parent t d) d) eqn:E; [|now rewrite andb_false_r].
      apply inode_eqb_eq in E. specialize (IH O). rewrite E in IH. simpl in IH. rewrite E, inode_eqb_refl in IH.
      rewrite orb_true_l, andb_true_r in *. exact IH.
    + destruct (inode_eqb (parent t d) d) eqn:E.
      * apply inode_eqb_eq in E. specialize (IH O). rewrite E in IH. simpl in IH. rewrite E, inode_eqb_refl in IH.
        rewrite orb_true_l, andb_true_r in *. exact IH.
      * rewrite IH. now rewrite andb_false_r.
Qed.

Lemma rename_do_sound w t old new t' : rename_do w t old new = Some t' -> rename_ok w t old new t'.
Proof.
  unfold rename_do. destruct (place w t old) as [[[d1 n1] v1]|] eqn:P1; [|discriminate].
  destruct (place w t new) as [[[d2 n2] v2]|] eqn:P2; [|discriminate].
  destruct (dot_name n1 || dotdot_name n1 || dot_name n2 || dotdot_name n2)%bool eqn:D; [discriminate|].
  rewrite !orb_false_iff in D. destruct D as [[[D1 D2] D3] D4].
  destruct (lookup w t d1 n1) as [i|] eqn:L; [|discriminate].
  destruct (is_dir w d2 && searchable w d2 && (negb (trailing_slash old || trailing_slash new) || is_dir w i) && (fst d1 =? fst d2)%N)%bool eqn:S; [|discriminate].
  apply andb_true_iff in S. destruct S as [S S4]. apply andb_true_iff in S. destruct S as [S S3]. apply N.eqb_eq in S4.
  intros E. exists d1, n1, v1, d2, n2, v2, i. splits; auto.
  - intros T. destruct (is_dir w i); auto. rewrite orb_false_r in S3. apply negb_true_iff in S3. apply orb_false_iff in S3.
    destruct S3, T; congruence.
  - destruct (lookup w t d2 n2) as [j|] eqn:L2.
    + destruct (inode_eqb i j) eqn:I.
      * destruct (inode_eqb d1 d2 && str_eqb (fold_name w d1 n1) (fold_name w d1 n2))%bool; congruence.
      * destruct (is_dir w i || is_dir w j)%bool eqn:K; [discriminate|]. apply orb_false_iff in K. destruct K as [K1 K2].
        injection E as <-. unfold replaceable. rewrite K1. splits; auto. intros [X _]. discriminate.
    + destruct (negb (is_dir w i) || not_below t i 9 d2)%bool eqn:K; [|discriminate]. injection E as <-. split; auto.
      intros [X B]. rewrite X, (not_below_sound t i d2 B 9) in K. discriminate.
Qed.

Lemma reply_sound w t h script c r t' h' script' :
  reply w t h script c = Some (r, t', h', script') -> fs_step w t c r t'.
Proof.
  destruct c; simpl.
  - intros E. injection E as <- <- _ _. destruct (lstat_inode w t path); split; eauto.
  - destruct (rename_do w t old new) eqn:R; intros E; injection E as <- <- _ _; [now apply rename_do_sound | reflexivity].
  - destruct (walk w t (max_symlinks w) (start_of w path) (components path)) as [[i v]|] eqn:W; [|discriminate].
    destruct (is_dir w i) eqn:K; [|discriminate]. intros E. injection E as <- <- _ _. split; eauto.
  - destruct script as [|[n|] rest]; [discriminate| |].
    + destruct (negb (str_eqb n []) && forallb (fun c => negb (beq c "/") && negb (beq c "000")) n && (length n <=? 255)%nat)%bool eqn:C; [|discriminate].
      apply andb_true_iff in C. destruct C as [C C3]. apply andb_true_iff in C. destruct C as [C1 C2].
      rewrite forallb_forall in C2. apply Nat.leb_le in C3.
      intros E. injection E as <- <- _ _. split; auto. unfold file_name. splits; auto.
      * intros ->. discriminate.
      * intros X. apply C2 in X. discriminate.
      * intros X. apply C2 in X. discriminate.
    + intros E. injection E as <- <- _ _. split; auto.
  - intros E. now injection E as _ <- _ _.
  - intros E. now injection E as _ <- _ _.
  - discriminate.
Qed.

Lemma play_sound {A} w (p : prog A) : forall t h script tr t' p',
  play w p t h script = (tr, t', p') -> runs (fs_step w) alone p t tr t' p'.
Proof.
  induction p as [a|x|c k IH]; intros t h script tr t' p' E.
  - injection E as <- <- <-. apply runs_here.
  - injection E as <- <- <-. apply runs_here.
  - cbn [play] in E. destruct (reply w t h script c) as [[[[r t1] h1] s1]|] eqn:R.
    + destruct (play w (k r) t1 h1 s1) as [[tr2 t2] p2] eqn:P. injection E as <- <- <-.
      eapply runs_call; [reflexivity | eapply reply_sound; eauto | eapply IH; eauto].
    + injection E as <- <- <-. apply runs_here.
Qed.

Lemma play_runs {A} w (p : prog A) t h script q :
  snd (play w p t h script) = q ->
  runs (fs_step w) alone p t (fst (fst (play w p t h script))) (snd (fst (play w p t h script))) q.
Proof. intros <-. destruct (play w p t h script) as [[tr t'] p'] eqn:E. now apply play_sound in E. Qed.
