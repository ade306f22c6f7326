(** * Vocabulary for what a run on a directory leaves behind *)

From Verif Require Import Base CleanSpec Filter Filelist Prog File FS FileSpec RunSpec.

Local Open Scope nat_scope.

(** ** A file system with directory streams

    The file system of FS.v says nothing about which names readdir returns.  POSIX does:
    an entry that is there from opendir to the end of the scan is returned; for one that
    is added or removed meanwhile this is unspecified.  The state has, for each open
    stream, its directory and the names that are still due: those that were there at
    opendir, have been there ever since and have not been returned. *)
Record state := mkState { tree_of : tree; stream_of : N -> option (inode * list str) }.

Definition names_in (t : tree) (d : inode) : list str :=
  map l_name (filter (fun l => inode_eqb (l_dir l) d) (links t)).

(** The entries of a file system have names of up to 255 bytes without '/', other than "."
    and "..". *)
Definition well_named (t : tree) : Prop :=
  forall l, In l (links t) -> file_name (l_name l) /\ l_name l <> bs "." /\ l_name l <> bs "..".

(** Those of [names] that are in directory [d]. *)
Definition still_there (t : tree) (d : inode) (names : list str) : list str :=
  filter (fun n => existsb (str_eqb n) (names_in t d)) names.

Definition unchanged (s s' : state) : Prop := forall h, stream_of s' h = stream_of s h.

(** Stream [h] is now [v], the others are what they were. *)
Definition now (s s' : state) (h : N) (v : option (inode * list str)) : Prop :=
  stream_of s' h = v /\ forall g, g <> h -> stream_of s' g = stream_of s g.

Definition stream_step (w : world) (s : state) (c : call) : answer c -> state -> Prop :=
  match c return answer c -> state -> Prop with
  | Opendir p => fun r s' =>
      match r with
      | Opened h => exists i via, walk w (tree_of s) (max_symlinks w) (start_of w p) (components p) = Some (i, via) /\
          stream_of s h = None /\ now s s' h (Some (i, names_in (tree_of s) i))
      | NotOpened _ _ => unchanged s s'
      end
  | Readdir h => fun r s' => exists i due, stream_of s h = Some (i, due) /\
      match r with
      | Some n => (n = bs "." \/ n = bs ".." \/ In n (names_in (tree_of s) i)) /\
          now s s' h (Some (i, filter (fun m => negb (str_eqb m n)) due))
      | None => due = [] /\ unchanged s s'
      end
  | Closedir h => fun _ s' => now s s' h None
  | Rename _ _ => fun r s' =>
      match r with
      | None => well_named (tree_of s') /\
          forall h, stream_of s' h =
            match stream_of s h with
            | Some (i, due) => Some (i, still_there (tree_of s') i due)
            | None => None
            end
      | Some _ => unchanged s s'
      end
  | _ => fun _ s' => unchanged s s'
  end.

Definition steady_step (w : world) (s : state) (c : call) (r : answer c) (s' : state) : Prop :=
  fs_step w (tree_of s) c r (tree_of s') /\ stream_step w s c r s'.

(** Nothing goes wrong: no path is too long, no rename and no opendir fails. *)
Definition unhindered (w : world) (e : event) : Prop :=
  match e with
  | Ev (Lstat p) _ => usable w p = true
  | Ev (Rename _ _) r => r = None
  | Ev (Opendir _) r => exists h, r = Opened h
  | _ => True
  end.

(** ** Names and entries *)

(** The sequence makes [c] of [n]. *)
Definition cleans_to (o : options_t) (n c : str) : Prop :=
  sequence_run_filters (o_platform o) (o_sequence_to_use o) (Some n) = Ok (Some c).

(** Cleaning the name of a file gives no '/', and cleaning again changes nothing. *)
Definition settles (o : options_t) : Prop :=
  forall n c, file_name n -> cleans_to o n c -> ~ In "/"%byte c /\ cleans_to o c c.

(** What is one name to a directory is one name to it after cleaning. *)
Definition respects_case (w : world) (o : options_t) : Prop :=
  forall d a b a' b', cleans_to o a a' -> cleans_to o b b' -> fold_name w d a = fold_name w d b ->
    fold_name w d a' = fold_name w d b'.

(** The entry has a clean name, or its clean name is empty, or in use: by another file, or
    by itself if it has several links. *)
Definition at_rest (w : world) (o : options_t) (t : tree) (l : link) : Prop :=
  exists c, cleans_to o (l_name l) c /\
    (c = l_name l \/ c = [] \/
     exists j, lookup w t (l_dir l) c = Some j /\ (j <> l_target l \/ (1 < st_nlink (stat_of w t (l_target l)))%N)).

(** Hidden, or on the list of names to ignore. *)
Definition passed_over (names : list str) (n : str) : Prop := hidden n \/ In n names.

(** The program has nothing to do with the entry, or nothing more. *)
Definition in_order (w : world) (o : options_t) (names : list str) (t : tree) (l : link) : Prop :=
  passed_over names (l_name l) \/
  (kind_of w (l_target l) <> KDir /\ kind_of w (l_target l) <> KReg /\ o_special o = false) \/
  at_rest w o t l.

(** The directories that a walk from [i] enters. *)
Inductive entered (w : world) (o : options_t) (names : list str) (t : tree) (i : inode) : inode -> Prop :=
| entered_start : entered w o names t i i
| entered_next l : entered w o names t i (l_dir l) -> In l (links t) -> o_recurse o = true ->
    kind_of w (l_target l) = KDir -> ~ passed_over names (l_name l) -> entered w o names t i (l_target l).

Definition all_in_order (w : world) (o : options_t) (names : list str) (t : tree) (i : inode) : Prop :=
  forall l, In l (links t) -> entered w o names t i (l_dir l) -> in_order w o names t l.

(** ** Trees and paths *)

(** No directory is below itself. *)
Definition no_loops (w : world) (t : tree) : Prop :=
  forall l, In l (links t) -> is_dir w (l_target l) = true -> ~ below t (l_target l) (l_dir l).

(** All directories can be searched. *)
Definition all_searchable (w : world) : Prop := forall i, is_dir w i = true -> searchable w i = true.

(** Following [p] uses no entry of a directory in the tree below [i]. *)
Definition comes_from_outside (w : world) (t : tree) (i : inode) (p : str) : Prop :=
  forall j via x c, walk w t (max_symlinks w) (start_of w p) (components p) = Some (j, via) ->
    In (x, c) via -> c = bs "." \/ c = bs ".." \/ ~ below t i x.

(** [f] is a path to directory [i] that does not run through the tree below [i] or through
    the entry it ends at, and whose last component may be the name of a file. *)
Definition path_to (w : world) (t : tree) (f : str) (i : inode) : Prop :=
  lstat_inode w t f = Some i /\ kind_of w i = KDir /\ comes_from_outside w t i f /\ not_through_itself w t f /\
  forall dir n, last_component f dir n -> n = [] \/ file_name n.

(** No rename succeeds. *)
Definition no_rename (tr : list event) : Prop := forall old new, ~ In (Ev (Rename old new) None) tr.
