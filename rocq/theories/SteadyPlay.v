(** * Playing a program in a file system with directory streams

    For concrete examples, as in Play.v. *)

From Verif Require Import Base BaseFacts Prog ProgFacts FS FSProofs FileSpec TidySpec Play TidyProofs TidyProofs2.

Definition set_stream (f : N -> option (inode * list str)) (h : N) (v : option (inode * list str)) : N -> option (inode * list str) :=
  fun g => if (g =? h)%N then v else f g.

Definition file_name_b (n : str) : bool :=
  (negb (str_eqb n []) && forallb (fun c => negb (beq c "/") && negb (beq c "000")) n && (length n <=? 255)%nat)%bool.

Definition well_named_b (t : tree) : bool :=
  forallb (fun l => file_name_b (l_name l) && negb (str_eqb (l_name l) (bs ".")) && negb (str_eqb (l_name l) (bs "..")))%bool (links t).

(** The directory streams after a call that was answered with [r]. *)
Definition streams_after (w : world) (s : state) (t' : tree) (c : call) : answer c -> option (N -> option (inode * list str)) :=
  match c return answer c -> option (N -> option (inode * list str)) with
  | Opendir p => fun r =>
      match r with
      | Opened h =>
        match walk w (tree_of s) (max_symlinks w) (start_of w p) (components p), stream_of s h with
        | Some (i, _), None => Some (set_stream (stream_of s) h (Some (i, names_in (tree_of s) i)))
        | _, _ => None
        end
      | NotOpened _ _ => Some (stream_of s)
      end
  | Readdir h => fun r =>
      match stream_of s h with
      | Some (i, due) =>
        match r with
        | Some n =>
          if (str_eqb n (bs ".") || str_eqb n (bs "..") || existsb (str_eqb n) (names_in (tree_of s) i))%bool
          then Some (set_stream (stream_of s) h (Some (i, filter (fun m => negb (str_eqb m n)) due))) else None
        | None => match due with [] => Some (stream_of s) | _ :: _ => None end
        end
      | None => None
      end
  | Closedir h => fun _ => Some (set_stream (stream_of s) h None)
  | Rename _ _ => fun r =>
      match r with
      | None => if well_named_b t' then
          Some (fun h => match stream_of s h with Some (i, due) => Some (i, still_there t' i due) | None => None end)
        else None
      | Some _ => Some (stream_of s)
      end
  | _ => fun _ => Some (stream_of s)
  end.

Fixpoint steady_play {A} (w : world) (p : prog A) (s : state) (h : N) (script : list (option str)) : list event * state * prog A :=
  match p with
  | Call c k =>
    match reply w (tree_of s) h script c with
    | Some (r, t', h', script') =>
      match streams_after w s t' c r with
      | Some f => let '(tr, s2, p2) := steady_play w (k r) (mkState t' f) h' script' in (Ev c r :: tr, s2, p2)
      | None => ([], s, p)
      end
    | None => ([], s, p)
    end
  | _ => ([], s, p)
  end.

Lemma file_name_sound n : file_name_b n = true -> file_name n.
Proof.
  unfold file_name_b. intros C. apply andb_true_iff in C. destruct C as [C C3]. apply andb_true_iff in C. destruct C as [C1 C2].
  rewrite forallb_forall in C2. apply Nat.leb_le in C3. unfold file_name. splits; auto.
  - intros ->. discriminate.
  - intros X. apply C2 in X. discriminate.
  - intros X. apply C2 in X. discriminate.
Qed.

Lemma well_named_sound t : well_named_b t = true -> well_named t.
Proof.
  unfold well_named_b. rewrite forallb_forall. intros H l Il. apply H in Il. rewrite !andb_true_iff, !negb_true_iff in Il.
  destruct Il as [[Il D1] D2]. splits; [now apply file_name_sound| |]; intros E; rewrite E in *; discriminate.
Qed.

Lemma set_stream_now s f h v t' : f = set_stream (stream_of s) h v -> now s (mkState t' f) h v.
Proof.
  intros ->. unfold now, set_stream. cbn. rewrite N.eqb_refl. split; auto. intros g G. apply N.eqb_neq in G. now rewrite G.
Qed.

Lemma streams_after_sound w s t' c r f : fs_step w (tree_of s) c r t' -> streams_after w s t' c r = Some f ->
  steady_step w s c r (mkState t' f).
Proof.
  intros F E. split; [exact F|]. destruct c; cbn [streams_after stream_step fs_step stream_of tree_of] in *.
  - injection E as <-. intros h. reflexivity.
  - destruct r as [m|]; [injection E as <-; intros h; reflexivity|]. destruct (well_named_b t') eqn:W; [|discriminate].
    injection E as <-. split; [now apply well_named_sound|]. reflexivity.
  - destruct r as [h|]; [|injection E as <-; intros h; reflexivity].
    destruct (walk w (tree_of s) (max_symlinks w) (start_of w path) (components path)) as [[i via]|]; [|discriminate].
    destruct (stream_of s h) eqn:S; [discriminate|]. injection E as <-. exists i, via. splits; auto. now apply set_stream_now.
  - destruct (stream_of s handle) as [[i due]|]; [|discriminate]. exists i, due. split; auto. destruct r as [n|].
    + destruct (str_eqb n (bs ".") || str_eqb n (bs "..") || existsb (str_eqb n) (names_in (tree_of s) i))%bool eqn:C; [|discriminate].
      injection E as <-. split; [|now apply set_stream_now]. clear F.
      rewrite !orb_true_iff, !str_eqb_eq in C. destruct C as [[C|C]|C]; auto. right. right.
      apply existsb_exists in C. destruct C as (m & Im & Em). apply str_eqb_eq in Em. now subst m.
    + destruct due; [|discriminate]. injection E as <-. split; auto. intros g. reflexivity.
  - injection E as <-. now apply set_stream_now.
  - injection E as <-. intros g. reflexivity.
  - injection E as <-. intros g. reflexivity.
Qed.

Lemma steady_sound {A} w (p : prog A) : forall s h script tr s' p',
  steady_play w p s h script = (tr, s', p') -> runs (steady_step w) alone p s tr s' p'.
Proof.
  induction p as [a|x|c k IH]; intros s h script tr s' p' E.
  - injection E as <- <- <-. apply runs_here.
  - injection E as <- <- <-. apply runs_here.
  - cbn [steady_play] in E. destruct (reply w (tree_of s) h script c) as [[[[r t1] h1] s1]|] eqn:R.
    + apply reply_sound in R. destruct (streams_after w s t1 c r) as [f|] eqn:F.
      * destruct (steady_play w (k r) (mkState t1 f) h1 s1) as [[tr2 t2] p2] eqn:P. injection E as <- <- <-.
        eapply runs_call; [reflexivity | eapply streams_after_sound; eauto | eapply IH; eauto].
      * injection E as <- <- <-. apply runs_here.
    + injection E as <- <- <-. apply runs_here.
Qed.

Lemma steady_runs {A} w (p : prog A) s h script q :
  snd (steady_play w p s h script) = q ->
  runs (steady_step w) alone p s (fst (fst (steady_play w p s h script))) (snd (fst (steady_play w p s h script))) q.
Proof. intros <-. destruct (steady_play w p s h script) as [[tr t'] p'] eqn:E. now apply steady_sound in E. Qed.
