(** * Facts about the file system *)

From Verif Require Import Base BaseFacts CleanSpec Filter Filelist Prog File FS FileSpec.

Lemma inode_eqb_eq a b : inode_eqb a b = true <-> a = b.
Proof.
  unfold inode_eqb. rewrite andb_true_iff, !N.eqb_eq. destruct a, b; simpl. split.
  - intros [-> ->]. reflexivity.
  - intros [= -> ->]. auto.
Qed.

Lemma inode_eqb_refl a : inode_eqb a a = true.
Proof. now apply inode_eqb_eq. Qed.

Lemma inode_eqb_neq a b : inode_eqb a b = false <-> a <> b.
Proof.
  destruct (inode_eqb a b) eqn:E.
  - apply inode_eqb_eq in E. split; congruence.
  - split; [|auto]. intros _ ->. now rewrite inode_eqb_refl in E.
Qed.

Lemma answers_iff w d n l :
  answers w d n l = true <-> l_dir l = d /\ fold_name w d (l_name l) = fold_name w d n.
Proof. unfold answers. now rewrite andb_true_iff, inode_eqb_eq, str_eqb_eq. Qed.

(** ** Moving an entry loses nothing *)

Lemma move_targets w t d1 n1 d2 n2 i : map l_target (links (move w t d1 n1 d2 n2 i)) = map l_target (links t).
Proof.
  unfold move. simpl. rewrite map_map. apply map_ext. intros l. now destruct (answers w d1 n1 l).
Qed.

Lemma refs_targets t i : refs t i = length (filter (fun x => inode_eqb x i) (map l_target (links t))).
Proof.
  unfold refs. induction (links t) as [|l ls IH]; simpl; auto.
  destruct (inode_eqb (l_target l) i); simpl; auto.
Qed.

Lemma nothing_lost_targets t t' : map l_target (links t') = map l_target (links t) -> nothing_lost t t'.
Proof. intros E. split; [|assumption]. intros i. now rewrite !refs_targets, E. Qed.

Lemma nothing_lost_refl t : nothing_lost t t.
Proof. now apply nothing_lost_targets. Qed.

Lemma nothing_lost_trans a b c : nothing_lost a b -> nothing_lost b c -> nothing_lost a c.
Proof. intros [A1 A2] [B1 B2]. split; [|congruence]. intros i. now rewrite B1. Qed.

(** ** Walking *)

Lemma walk_nil w t n d : walk w t n d [] = Some (d, []).
Proof. destruct n; reflexivity. Qed.

Lemma walk_cons w t n d c rest :
  walk w t n d (c :: rest) =
  match lookup w t d c with
  | None => None
  | Some i =>
    match
      match kind_of w i with
      | KSym target =>
        match n with
        | O => None
        | S n' => walk w t n' (if absolute target then root w else d) (components target ++ rest)
        end
      | _ => walk w t n i rest
      end with
    | Some (j, via) => Some (j, (d, c) :: via)
    | None => None
    end
  end.
Proof. destruct n; reflexivity. Qed.

Lemma walk_last w t c j n : forall d front e via,
  walk w t n d front = Some (e, via) -> lookup w t e c = Some j -> is_dir w j = true ->
  walk w t n d (front ++ [c]) = Some (j, via ++ [(e, c)]).
Proof.
  induction n as [|n IHn]; intros d front; revert d; induction front as [|x rest IH]; intros d e via W L K.
  - rewrite walk_nil in W. injection W as <- <-. simpl app. rewrite walk_cons, L.
    unfold is_dir in K. destruct (kind_of w j); try discriminate. now rewrite walk_nil.
  - rewrite walk_cons in W. simpl app. rewrite walk_cons. destruct (lookup w t d x) as [i|]; [|discriminate].
    destruct (kind_of w i) eqn:Ki; try discriminate;
    (destruct (walk w t 0 i rest) as [[f v]|] eqn:W2; [|discriminate]; injection W as <- <-;
     rewrite (IH i f v W2 L K); reflexivity).
  - rewrite walk_nil in W. injection W as <- <-. simpl app. rewrite walk_cons, L.
    unfold is_dir in K. destruct (kind_of w j); try discriminate. now rewrite walk_nil.
  - rewrite walk_cons in W. simpl app. rewrite walk_cons. destruct (lookup w t d x) as [i|]; [|discriminate].
    destruct (kind_of w i) eqn:Ki; try discriminate;
    try (destruct (walk w t (S n) i rest) as [[f v]|] eqn:W2; [|discriminate]; injection W as <- <-;
     rewrite (IH i f v W2 L K); reflexivity).
    destruct (walk w t n (if absolute target then root w else d) (components target ++ rest)) as [[f v]|] eqn:W2; [|discriminate].
    injection W as <- <-. rewrite app_assoc. rewrite (IHn _ _ _ _ W2 L K). reflexivity.
Qed.

(** A walk that finds the same entries gives the same result. *)
Lemma walk_stable w t t' n : forall d comps e via,
  walk w t n d comps = Some (e, via) ->
  (forall x c i, In (x, c) via -> lookup w t x c = Some i -> lookup w t' x c = Some i) ->
  walk w t' n d comps = Some (e, via).
Proof.
  induction n as [|n IHn]; intros d comps; revert d; induction comps as [|c rest IH]; intros d e via W H.
  - rewrite walk_nil in *. exact W.
  - rewrite walk_cons in *. destruct (lookup w t d c) as [i|] eqn:L; [|discriminate].
    destruct (kind_of w i) eqn:Ki; try discriminate;
    (destruct (walk w t 0 i rest) as [[f v]|] eqn:W2; [|discriminate]; injection W as <- <-;
     rewrite (H d c i) by (auto; now left); rewrite Ki, (IH i f v W2); [reflexivity|];
     intros x y k I; apply H; now right).
  - rewrite walk_nil in *. exact W.
  - rewrite walk_cons in *. destruct (lookup w t d c) as [i|] eqn:L; [|discriminate].
    destruct (kind_of w i) eqn:Ki; try discriminate;
    try (destruct (walk w t (S n) i rest) as [[f v]|] eqn:W2; [|discriminate]; injection W as <- <-;
     rewrite (H d c i) by (auto; now left); rewrite Ki, (IH i f v W2); [reflexivity|];
     intros x y k I; apply H; now right).
    destruct (walk w t n (if absolute target then root w else d) (components target ++ rest)) as [[f v]|] eqn:W2; [|discriminate].
    injection W as <- <-. rewrite (H d c i) by (auto; now left). rewrite Ki, (IHn _ _ _ _ W2); [reflexivity|].
    intros x y k I. apply H. now right.
Qed.

(** ** Paths *)

Lemma pieces_nonempty s : pieces s <> [].
Proof. destruct s as [|c r]; simpl; [discriminate|]. destruct (beq c "/"); [discriminate|]. now destruct (pieces r). Qed.

Lemma pieces_slash a b : pieces (a ++ "/"%byte :: b) = pieces a ++ pieces b.
Proof.
  induction a as [|c a IH]; simpl; [reflexivity|].
  destruct (beq c "/"); [now rewrite IH|].
  rewrite IH. pose proof (pieces_nonempty a). destruct (pieces a); [contradiction|]. reflexivity.
Qed.

Lemma pieces_plain s : ~ In "/"%byte s -> pieces s = [s].
Proof.
  induction s as [|c r IH]; intros N; simpl; [reflexivity|].
  destruct (beq c "/") eqn:E; [apply beq_eq in E; subst; exfalso; apply N; now left|].
  rewrite IH; [reflexivity|]. intros I. apply N. now right.
Qed.

Lemma components_last p dir base :
  last_component p dir base -> base <> [] -> components p = components dir ++ [base].
Proof.
  intros (-> & N & D) B. unfold components.
  assert (Fb : filter nonempty [base] = [base]) by (destruct base; [contradiction|reflexivity]).
  destruct D as [->|(d & ->)].
  - simpl app at 1. rewrite pieces_plain by assumption. exact Fb.
  - rewrite <- app_assoc. change (bs "/" ++ base) with ("/"%byte :: base). rewrite pieces_slash, filter_app.
    change (bs "/") with (["/"%byte]). rewrite pieces_slash, filter_app. simpl pieces at 3. simpl filter at 3.
    rewrite app_nil_r. f_equal. rewrite pieces_plain by assumption. exact Fb.
Qed.

Lemma unlast_app l x : unlast (l ++ [x]) = Some (l, x).
Proof. unfold unlast. rewrite rev_app_distr. simpl. now rewrite rev_involutive. Qed.

Lemma last_not_trailing p dir base : last_component p dir base -> base <> [] -> trailing_slash p = false.
Proof.
  intros (-> & N & _) B. unfold trailing_slash. rewrite rev_app_distr.
  destruct (rev base) as [|c r] eqn:E.
  - exfalso. apply B. rewrite <- (rev_involutive base), E. reflexivity.
  - simpl. apply beq_neq. intros ->. apply N. rewrite <- (rev_involutive base), E. apply in_rev. rewrite rev_involutive. now left.
Qed.

Lemma last_nonempty p dir base : last_component p dir base -> base <> [] -> nonempty p = true.
Proof. intros (-> & _) B. destruct dir; [|reflexivity]. now destruct base. Qed.

(** Where a path with a proper last component is. *)
Lemma place_last w t p dir base :
  last_component p dir base -> base <> [] ->
  place w t p =
  if usable w p then
    match walk w t (max_symlinks w) (start_of w p) (components dir) with
    | Some (d, via) => Some (d, base, via)
    | None => None
    end
  else None.
Proof.
  intros L B. unfold place. rewrite (components_last p dir base L B), unlast_app. reflexivity.
Qed.

Lemma lstat_last w t p dir base :
  last_component p dir base -> base <> [] ->
  lstat_inode w t p = match place w t p with Some (d, n, _) => lookup w t d n | None => None end.
Proof.
  intros L B. unfold lstat_inode. rewrite (last_nonempty p dir base L B), (last_not_trailing p dir base L B).
  unfold place. destruct (usable w p); reflexivity.
Qed.

(** The start of two paths that agree up to the last component. *)
Lemma start_agrees w p q dir a b :
  last_component p dir a -> last_component q dir b -> start_of w p = start_of w q.
Proof.
  intros (-> & N & _) (-> & M & _). unfold start_of, absolute.
  destruct dir as [|c d]; [|reflexivity]. simpl.
  assert (H : forall x, ~ In "/"%byte x -> match x with c :: _ => beq c "/" | [] => false end = false).
  { intros [|c x] H; [reflexivity|]. apply beq_neq. intros ->. apply H. now left. }
  now rewrite !H.
Qed.

(** ** Renaming to a name that is not in use *)

Lemma place_lookup_free w t p d n v j :
  place w t p = Some (d, n, v) -> lookup w t d n = Some j ->
  lstat_inode w t p = Some j \/ (trailing_slash p = true /\
    ((is_dir w j = true /\ lstat_inode w t p = Some j) \/ is_dir w j = false)).
Proof.
  intros P L. unfold lstat_inode. rewrite P.
  unfold place in P. destruct (usable w p); [|discriminate].
  assert (NE : nonempty p = true) by (destruct p; [discriminate|reflexivity]).
  rewrite NE. simpl andb. cbv iota.
  destruct (trailing_slash p) eqn:T; [|auto]. right. split; [reflexivity|].
  destruct (unlast (components p)) as [[front last]|] eqn:U; [|discriminate].
  destruct (walk w t (max_symlinks w) (start_of w p) front) as [[e via]|] eqn:W; [|discriminate].
  injection P as -> -> ->.
  assert (C : components p = front ++ [n]).
  { unfold unlast in U. destruct (rev (components p)) eqn:R; [discriminate|]. injection U as <- <-.
    rewrite <- (rev_involutive (components p)), R. reflexivity. }
  destruct (is_dir w j) eqn:K; [left | now right]. split; [reflexivity|].
  rewrite C, (walk_last w t n j _ _ _ _ _ W L K), K. reflexivity.
Qed.

(** A successful rename towards a path lstat finds nothing at, or finds the same file
    at, loses nothing. *)
Lemma rename_free w t old new t' :
  rename_ok w t old new t' ->
  (lstat_inode w t new = None \/ exists i, lstat_inode w t old = Some i /\ lstat_inode w t new = Some i) ->
  trailing_slash old = false ->
  nothing_lost t t'.
Proof.
  intros (d1 & n1 & v1 & d2 & n2 & v2 & i & P1 & P2 & D1 & D2 & D3 & D4 & L1 & S2 & T & Dev & M) F TO.
  assert (LO : lstat_inode w t old = Some i).
  { destruct (place_lookup_free w t old d1 n1 v1 i P1 L1) as [H|[H _]]; [assumption|congruence]. }
  destruct (lookup w t d2 n2) as [j|] eqn:L2.
  - destruct (inode_eqb i j) eqn:E.
    + destruct (inode_eqb d1 d2 && str_eqb (fold_name w d1 n1) (fold_name w d1 n2)).
      * subst t'. apply nothing_lost_targets, move_targets.
      * subst t'. apply nothing_lost_refl.
    + exfalso. apply inode_eqb_neq in E. destruct M as (R & _ & _).
      destruct (place_lookup_free w t new d2 n2 v2 j P2 L2) as [H|[H [[K H2]|K]]].
      * destruct F as [F|(x & X1 & X2)]; congruence.
      * destruct F as [F|(x & X1 & X2)]; congruence.
      * unfold replaceable in R. rewrite (T (or_intror H)) in R. destruct R as [R _]. congruence.
  - destruct M as (_ & ->). apply nothing_lost_targets, move_targets.
Qed.

(** ** Well-formed trees *)

Lemma answers_key w d n l : answers w d n l = true <-> key w l = (d, fold_name w d n).
Proof.
  rewrite answers_iff. unfold key. split.
  - intros [<- ->]. reflexivity.
  - intros E. injection E as -> E. auto.
Qed.

Lemma entry_in w t d n i : entry w t d n = Some i -> exists l, In l (links t) /\ answers w d n l = true /\ l_target l = i.
Proof.
  unfold entry. destruct (find (answers w d n) (links t)) as [l|] eqn:F; [|discriminate].
  simpl. intros [= <-]. apply find_some in F. exists l. tauto.
Qed.

Lemma entry_none w t d n l : entry w t d n = None -> In l (links t) -> answers w d n l = false.
Proof.
  unfold entry. destruct (find (answers w d n) (links t)) as [x|] eqn:F; [discriminate|].
  intros _ I. eapply find_none in F; eauto.
Qed.

Lemma answers_ext w d n m l : fold_name w d n = fold_name w d m -> answers w d n l = answers w d m l.
Proof. intros E. unfold answers. now rewrite E. Qed.

Lemma lookup_plain w t d n : dot_name n = false -> dotdot_name n = false ->
  lookup w t d n = if is_dir w d && searchable w d then entry w t d n else None.
Proof. intros A B. unfold lookup. now rewrite A, B. Qed.

(** Finding the moved entry under its new name. *)
Lemma entry_moved w t d n1 n2 i :
  entry w t d n1 = Some i ->
  (forall l, In l (links t) -> answers w d n2 l = true -> answers w d n1 l = true) ->
  entry w (move w t d n1 d n2 i) d n2 = Some i.
Proof.
  unfold entry, move. cbn [links]. induction (links t) as [|l ls IH]; intros F H; [discriminate|].
  cbn [find map] in *. destruct (answers w d n1 l) eqn:A.
  - simpl in F. injection F as <-.
    replace (answers w d n2 (mkLink d n2 (l_target l))) with true; [reflexivity|].
    symmetry. apply answers_iff. auto.
  - destruct (answers w d n2 l) eqn:B; [rewrite (H l (or_introl eq_refl) B) in A; discriminate|].
    apply IH; auto. intros x I. apply H. now right.
Qed.

(** Other names are found as before. *)
Lemma entry_other w t d n1 n2 i x c :
  ~ (x = d /\ fold_name w d c = fold_name w d n1) ->
  ~ (x = d /\ fold_name w d c = fold_name w d n2) ->
  entry w (move w t d n1 d n2 i) x c = entry w t x c.
Proof.
  intros N1 N2. unfold entry, move. cbn [links]. induction (links t) as [|l ls IH]; [reflexivity|].
  cbn [find map]. destruct (answers w d n1 l) eqn:A.
  - assert (B : answers w x c l = false).
    { destruct (answers w x c l) eqn:B; auto. apply answers_iff in A, B. destruct A as [A1 A2], B as [B1 B2].
      exfalso. apply N1. split; [congruence|]. assert (x = d) by congruence. subst x. congruence. }
    assert (C : answers w x c (mkLink d n2 (l_target l)) = false).
    { destruct (answers w x c (mkLink d n2 (l_target l))) eqn:C; auto. apply answers_iff in C. simpl in C.
      destruct C as [C1 C2]. exfalso. apply N2. subst d. auto. }
    rewrite B, C. exact IH.
  - destruct (answers w x c l); [reflexivity | exact IH].
Qed.

(** Moving an entry within its directory leaves ".." alone. *)
Lemma move_parent w t d n1 n2 i x :
  wf_tree w t -> entry w t d n1 = Some i -> parent (move w t d n1 d n2 i) x = parent t x.
Proof.
  intros (_ & _ & P & _) E. unfold move. cbn [parent].
  destruct (is_dir w i) eqn:K; [|reflexivity]. simpl. destruct (inode_eqb x i) eqn:X; [|reflexivity].
  apply inode_eqb_eq in X. subst x. apply entry_in in E. destruct E as (l & I & A & T).
  subst i. rewrite (P l I K). apply answers_iff in A. symmetry. tauto.
Qed.
