(** * A POSIX file system: what lstat, rename, opendir and readdir do

    This is not detox code; it is the outside world that src/file.c works in, with
    hard links, symbolic links, several devices, "." and "..", search permission,
    and directories that ignore case.  What detox never does (creating, deleting or
    writing files) is absent. *)

From Verif Require Import Base Prog.

(** A file is identified by its device and inode number. *)
Definition inode := (N * N)%type.
Definition inode_eqb (a b : inode) : bool := ((fst a =? fst b) && (snd a =? snd b))%N.

Inductive kind := KDir | KReg | KSym (target : str) | KOther.

(** The part of the world that no call of detox changes.  File contents are not
    even mentioned: no call writes to a file. *)
Record world := mkWorld {
  kind_of : inode -> kind;
  searchable : inode -> bool;          (* may the process look up names in this directory? *)
  fold_name : inode -> str -> str;     (* names equal under it are one name to this directory *)
  usable : str -> bool;                (* paths the system accepts at all, e.g. by length *)
  dir_nlink : inode -> N;              (* what st_nlink says for a directory *)
  root : inode;
  cwd : inode;
  max_symlinks : nat
}.

(** A directory entry other than "." and "..". *)
Record link := mkLink { l_dir : inode; l_name : str; l_target : inode }.

(** The part that changes: all the directory entries, and the ".." of directories. *)
Record tree := mkTree { links : list link; parent : inode -> inode }.

Definition is_dir (w : world) (i : inode) : bool :=
  match kind_of w i with KDir => true | _ => false end.

(** Does entry [l] answer to name [n] in directory [d]? *)
Definition answers (w : world) (d : inode) (n : str) (l : link) : bool :=
  inode_eqb (l_dir l) d && str_eqb (fold_name w d (l_name l)) (fold_name w d n).

Definition entry (w : world) (t : tree) (d : inode) (n : str) : option inode :=
  option_map l_target (find (answers w d n) (links t)).

Definition dot_name (n : str) : bool := str_eqb n (bs ".").
Definition dotdot_name (n : str) : bool := str_eqb n (bs "..").

(** One step of path resolution. *)
Definition lookup (w : world) (t : tree) (d : inode) (n : str) : option inode :=
  if is_dir w d && searchable w d then
    if dot_name n then Some d
    else if dotdot_name n then Some (parent t d)
    else entry w t d n
  else None.

(** ** Paths *)

Fixpoint pieces (s : str) : list str :=
  match s with
  | [] => [[]]
  | c :: r =>
    if beq c "/" then [] :: pieces r
    else match pieces r with p :: ps => (c :: p) :: ps | [] => [[c]] end
  end.

Definition nonempty (s : str) : bool := match s with [] => false | _ => true end.

Definition components (p : str) : list str := filter nonempty (pieces p).

Definition absolute (p : str) : bool := match p with c :: _ => beq c "/" | [] => false end.

Definition trailing_slash (p : str) : bool := absolute (rev p).

(** The directory entries that were looked up on the way, besides the result. *)
Definition visited := list (inode * str).

(** Follow [comps] from directory [d], expanding at most [n] symbolic links. *)
Fixpoint walk (w : world) (t : tree) (n : nat) {struct n} : inode -> list str -> option (inode * visited) :=
  fix go (d : inode) (comps : list str) {struct comps} : option (inode * visited) :=
    match comps with
    | [] => Some (d, [])
    | c :: rest =>
      match lookup w t d c with
      | None => None
      | Some i =>
        let next :=
          match kind_of w i with
          | KSym target =>
            match n with
            | O => None
            | S n' => walk w t n' (if absolute target then root w else d) (components target ++ rest)
            end
          | _ => go i rest
          end in
        match next with
        | Some (j, via) => Some (j, (d, c) :: via)
        | None => None
        end
      end
    end.

Definition start_of (w : world) (p : str) : inode := if absolute p then root w else cwd w.

Definition unlast (l : list str) : option (list str * str) :=
  match rev l with [] => None | x :: r => Some (rev r, x) end.

(** The directory and the name that a path designates, for a path with at least one
    component. *)
Definition place (w : world) (t : tree) (p : str) : option (inode * str * visited) :=
  if usable w p then
    match unlast (components p) with
    | None => None
    | Some (front, last) =>
      match walk w t (max_symlinks w) (start_of w p) front with
      | Some (d, via) => Some (d, last, via)
      | None => None
      end
    end
  else None.

(** The file lstat reports on.  With a trailing slash a final symbolic link is
    followed and the result must be a directory. *)
Definition lstat_inode (w : world) (t : tree) (p : str) : option inode :=
  if usable w p && nonempty p then
    if trailing_slash p then
      match walk w t (max_symlinks w) (start_of w p) (components p) with
      | Some (j, _) => if is_dir w j then Some j else None
      | None => None
      end
    else
      match place w t p with
      | Some (d, n, _) => lookup w t d n
      | None => None
      end
  else None.

(** The number of directory entries of a file. *)
Definition refs (t : tree) (i : inode) : nat :=
  length (filter (fun l => inode_eqb (l_target l) i) (links t)).

Definition stat_of (w : world) (t : tree) (i : inode) : stat :=
  mkStat (fst i) (snd i)
    (match kind_of w i with KDir => dir_nlink w i | _ => N.of_nat (refs t i) end)
    (match kind_of w i with KDir => SDir | KReg => SReg | _ => SOther end).

(** ** Rename *)

(** The entry that answers to (d1, n1) becomes (d2, n2); the ".." of a directory
    follows. *)
Definition move (w : world) (t : tree) (d1 : inode) (n1 : str) (d2 : inode) (n2 : str) (i : inode) : tree :=
  mkTree
    (map (fun l => if answers w d1 n1 l then mkLink d2 n2 (l_target l) else l) (links t))
    (fun x => if is_dir w i && inode_eqb x i then d2 else parent t x).

(** The entry that answers to (d, n) goes away. *)
Definition unlink (w : world) (t : tree) (d : inode) (n : str) : tree :=
  mkTree (filter (fun l => negb (answers w d n l)) (links t)) (parent t).

(** [d] is [i] or below it. *)
Inductive below (t : tree) (i : inode) : inode -> Prop :=
| below_self : below t i i
| below_up d : below t i (parent t d) -> below t i d.

Definition empty_dir (t : tree) (i : inode) : Prop := Forall (fun l => l_dir l <> i) (links t).

(** May rename replace [j] by [i]? *)
Definition replaceable (w : world) (t : tree) (i j : inode) : Prop :=
  if is_dir w i then is_dir w j = true /\ empty_dir t j else is_dir w j = false.

(** A successful rename(old, new). *)
Definition rename_ok (w : world) (t : tree) (old new : str) (t' : tree) : Prop :=
  exists d1 n1 v1 d2 n2 v2 i,
    place w t old = Some (d1, n1, v1) /\ place w t new = Some (d2, n2, v2) /\
    dot_name n1 = false /\ dotdot_name n1 = false /\ dot_name n2 = false /\ dotdot_name n2 = false /\
    lookup w t d1 n1 = Some i /\
    (is_dir w d2 && searchable w d2)%bool = true /\
    (trailing_slash old = true \/ trailing_slash new = true -> is_dir w i = true) /\
    fst d1 = fst d2 /\
    match lookup w t d2 n2 with
    | None => ~ (is_dir w i = true /\ below t i d2) /\ t' = move w t d1 n1 d2 n2 i
    | Some j =>
      if inode_eqb i j then
        (* the same file: only the spelling of the same entry can change *)
        if inode_eqb d1 d2 && str_eqb (fold_name w d1 n1) (fold_name w d1 n2)
        then t' = move w t d1 n1 d2 n2 i
        else t' = t
      else
        replaceable w t i j /\ ~ (is_dir w i = true /\ below t i d2) /\
        t' = move w (unlink w t d2 n2) d1 n1 d2 n2 i
    end.

(** ** The calls *)

(** A name readdir can return. *)
Definition file_name (n : str) : Prop :=
  n <> [] /\ ~ In "/"%byte n /\ nonul n /\ (length n <= 255)%nat.

(** What each call may answer, and its effect.  rename and opendir may always fail
    for reasons of their own; readdir may return any name at any time (entries
    added or removed during a scan make its results unspecified). *)
Definition fs_step (w : world) (t : tree) (c : call) : answer c -> tree -> Prop :=
  match c return answer c -> tree -> Prop with
  | Lstat p => fun r t' => t' = t /\
      match lstat_inode w t p with
      | Some i => r = inl (stat_of w t i)
      | None => exists message, r = inr message
      end
  | Rename old new => fun r t' =>
      match r with
      | None => rename_ok w t old new t'
      | Some _ => t' = t
      end
  | Opendir p => fun r t' => t' = t /\
      match r with
      | Opened _ => exists i via, walk w t (max_symlinks w) (start_of w p) (components p) = Some (i, via) /\ is_dir w i = true
      | NotOpened _ _ => True
      end
  | Readdir _ => fun r t' => t' = t /\ match r with Some n => file_name n | None => True end
  | Closedir _ => fun _ t' => t' = t
  | Print _ _ => fun _ t' => t' = t
  | ReadStream _ => fun _ t' => t' = t
  end.

(** The same world, except that lstat may also fail for a file that exists (an I/O
    error, a network file system). *)
Definition flaky_step (w : world) (t : tree) (c : call) : answer c -> tree -> Prop :=
  match c return answer c -> tree -> Prop with
  | Lstat p => fun r t' => fs_step w t (Lstat p) r t' \/ (t' = t /\ exists message, r = inr message)
  | c => fs_step w t c
  end.

(** Another process creates, removes or renames entries. *)
Definition anyone (w : world) (t t' : tree) : Prop := True.
