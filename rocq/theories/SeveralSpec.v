(** * Vocabulary for what a run on several arguments leaves behind *)

From Verif Require Import Base Filter Prog File FS FileSpec RunSpec TidySpec.

Local Open Scope nat_scope.

(** In the tree of directory [k] *)
Definition inside (w : world) (t : tree) (k x : inode) : Prop := is_dir w k = true /\ below t k x.

(** The entry of directory [x] that answers to [c] is not one for [k], and [x] is not in the
    tree of [k]. *)
Definition passes (w : world) (t : tree) (k x : inode) (c : str) : Prop :=
  c = bs "." \/ c = bs ".." \/ ~ inside w t k x /\ lookup w t x c <> Some k.

(** [p], whose last component [b] is the name of a file, leads to directory [d], where [b] is
    the file [i]; on the way it uses no entry for one of the files [ks], and none in the trees
    of those that are directories. *)
Definition stands_at (w : world) (t : tree) (ks : list inode) (p : str) (i : inode) (dir b : str) (d : inode) (via : visited) : Prop :=
  last_component p dir b /\ file_name b /\ b <> bs "." /\ b <> bs ".." /\ usable w p = true /\
  walk w t (max_symlinks w) (start_of w p) (components dir) = Some (d, via) /\ lookup w t d b = Some i /\
  forall k, In k ks -> ~ inside w t k d /\ forall x c, In (x, c) via -> passes w t k x c.

Definition stands (w : world) (t : tree) (ks : list inode) (p : str) (i : inode) : Prop :=
  exists dir b d via, stands_at w t ks p i dir b d via.

(** The program deals with files of this kind. *)
Definition treated (w : world) (o : options_t) (i : inode) : Prop :=
  kind_of w i = KDir \/ kind_of w i = KReg \/ o_special o = true.

(** The arguments [args], paths with the files they stand for: distinct files, and no path uses
    an entry for another argument, or an entry in the tree of one. *)
Definition separate (w : world) (o : options_t) (t : tree) (args : list (str * inode)) : Prop :=
  NoDup (map snd args) /\ forall p i, In (p, i) args -> treated w o i /\ stands w t (map snd args) p i.

(** There is nothing left to do for [q], the path of [i]. *)
Definition settled (w : world) (o : options_t) (names : list str) (t : tree) (q : str) (i : inode) : Prop :=
  lstat_inode w t q = Some i /\ (forall new, ~ would_rename w o t q new) /\
  (kind_of w i = KDir -> all_in_order w o names t i).
