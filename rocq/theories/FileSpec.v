(** * Vocabulary for statements about processing files *)

From Verif Require Import Base CleanSpec Filter Filelist Prog Warnings File FS.

(** [path] is directory part [dir] followed by last component [base]. *)
Definition last_component (path dir base : str) : Prop :=
  path = dir ++ base /\ ~ In "/"%byte base /\ (dir = [] \/ exists d, dir = d ++ bs "/").

(** The line announcing a rename. *)
Definition announced (old new : str) : event :=
  Ev (Print Stdout (old ++ bs " -> " ++ new ++ [Nb 10])) tt.

Definition is_rename (e : event) : Prop :=
  match e with Ev (Rename _ _) _ => True | _ => False end.

(** A name that starts with a dot. *)
Definition hidden (n : str) : Prop := exists r, n = "."%byte :: r.

(** Every file has as many directory entries as before; the entries are the same up
    to their names and places. *)
Definition nothing_lost (t t' : tree) : Prop :=
  (forall i, refs t' i = refs t i) /\ map l_target (links t') = map l_target (links t).

(** The items of a file list in order of insertion. *)
Definition items (l : option filelist) : list str :=
  match l with
  | None => []
  | Some l => flat_map (fun x => match x with Some f => [f] | None => [] end) (firstn (fl_count l) (fl_slots l))
  end.

(** A list built by puts and read by gets. *)
Inductive usable_list : option filelist -> Prop :=
| usable_null : usable_list None
| usable_init : usable_list (Some filelist_init)
| usable_put l f l' : usable_list (Some l) -> filelist_put (Some l) f = Ok l' -> usable_list (Some l')
| usable_get l r l' : usable_list l -> filelist_get l = Ok (r, l') -> usable_list l'
| usable_reset l : usable_list l -> usable_list (filelist_reset l).

(** Where the cursor is. *)
Definition cursor (l : option filelist) : nat := match l with None => 0 | Some l => fl_ptr l end.

(** ** What a directory walk may touch *)

(** Directory [p] is part of the walk that starts at [start] and has done the calls
    [tr]: it is [start] itself, or was read as entry [n] of a directory of the walk that
    has been opened, and possibly renamed since. *)
Inductive walked (start : str) (tr : list event) : str -> Prop :=
| walked_start : walked start tr start
| walked_entry top h n p :
    walked start tr top ->
    In (Ev (Opendir top) (Opened h)) tr -> In (Ev (Readdir h) (Some n)) tr -> ~ hidden n ->
    p = top ++ bs "/" ++ n \/ In (Ev (Rename (top ++ bs "/" ++ n) p) None) tr ->
    walked start tr p.

(** [p] is entry [n] of directory [top], which has been opened and read. *)
Definition met (tr : list event) (top n p : str) : Prop :=
  exists h, In (Ev (Opendir top) (Opened h)) tr /\ In (Ev (Readdir h) (Some n)) tr /\ p = top ++ bs "/" ++ n.

(** Worlds in which readdir returns file names. *)
Definition honest_names {S : Type} (step : S -> forall c, answer c -> S -> Prop) : Prop :=
  forall s h n s', step s (Readdir h) (Some n) s' -> file_name n.

(** The names, other than hidden ones, that readdir has returned, latest first. *)
Fixpoint checked (tr : list event) : list str :=
  match tr with
  | [] => []
  | Ev (Readdir _) (Some ("."%byte :: _)) :: tr => checked tr
  | Ev (Readdir _) (Some n) :: tr => n :: checked tr
  | _ :: tr => checked tr
  end.

(** ** Renaming one file *)

(** What is said about the name [base] while it is cleaned. *)
Definition remarks (o : options_t) (base : str) : list (stream * str) :=
  fst (sequence_run_says (o_platform o) (o_sequence_to_use o) (Some base)).

(** What a rename request looks like. *)
Definition proper_rename (o : options_t) (old new : str) : Prop :=
  exists dir base clean,
    last_component old dir base /\ new = dir ++ clean /\
    base <> [] /\ base <> bs "." /\ base <> bs ".." /\ clean <> base /\
    sequence_run_filters (o_platform o) (o_sequence_to_use o) (Some base) = Ok (Some clean).

(** The situation in which a rename is requested. *)
Definition free_target (w : world) (t : tree) (old new : str) : Prop :=
  exists i, lstat_inode w t old = Some i /\ (lstat_inode w t new = None \/ lstat_inode w t new = Some i).

(** The condition for attempting a rename. *)
Definition would_rename (w : world) (o : options_t) (t : tree) (p new : str) : Prop :=
  proper_rename o p new /\
  exists i, lstat_inode w t p = Some i /\
    (lstat_inode w t new = None \/ lstat_inode w t new = Some i /\ (st_nlink (stat_of w t i) <= 1)%N).

(** What holds when a call is about to be issued in tree [t]. *)
Definition sound_request (w : world) (o : options_t) (t : tree) (c : call) : Prop :=
  match c with
  | Rename old new =>
    would_rename w o t old new /\
    (o_special o = false -> exists i, lstat_inode w t old = Some i /\ (kind_of w i = KDir \/ kind_of w i = KReg))
  | Opendir p => exists i, lstat_inode w t p = Some i /\ kind_of w i = KDir
  | _ => True
  end.

(** The same options with the dry-run flag set to [b]. *)
Definition with_dry_run (b : bool) (o : options_t) : options_t :=
  mkOptions (o_platform o) b (o_is_inline_bin o) (o_is_inline_mode o) (o_list_sequences o) (o_recurse o)
    (o_special o) (o_verbose o) (o_sequence_to_use o) (o_files_to_ignore o) (o_sequence_name o)
    (o_check_config_file o) (o_files o).

(** A name a file can have. *)
Definition plain_name (n : str) : Prop := n <> [] /\ ~ In "/"%byte n.

(** Resolving the directory part of [p] does not go through the entry that the last
    component of [p] names. *)
Definition not_through_itself (w : world) (t : tree) (p : str) : Prop :=
  forall d n via, place w t p = Some (d, n, via) ->
    forall x c, In (x, c) via -> ~ (x = d /\ fold_name w d c = fold_name w d n).

(** What an entry is called, and where. *)
Definition key (w : world) (l : link) : inode * str := (l_dir l, fold_name w (l_dir l) (l_name l)).

(** No two entries of a directory answer to the same name, and a directory has one
    entry, in its parent, which is not itself. *)
Definition wf_tree (w : world) (t : tree) : Prop :=
  NoDup (map (key w) (links t)) /\
  NoDup (map l_target (filter (fun l => is_dir w (l_target l)) (links t))) /\
  (forall l, In l (links t) -> is_dir w (l_target l) = true -> parent t (l_target l) = l_dir l) /\
  (forall l, In l (links t) -> l_target l <> l_dir l).

(** Put many items, get many items. *)
Fixpoint put_all (l : filelist) (files : list str) : res filelist :=
  match files with
  | [] => Ok l
  | f :: r => do l' <- filelist_put (Some l) f; put_all l' r
  end.

Fixpoint get_many (n : nat) (l : option filelist) : res (list (option str) * option filelist) :=
  match n with
  | O => Ok ([], l)
  | S n' =>
    do g <- filelist_get l;
    match g with
    | (r, l') => do rest <- get_many n' l'; Ok (r :: fst rest, snd rest)
    end
  end.
