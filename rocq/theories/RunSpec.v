(** * The shape of a complete run

    Which calls, with which answers, a run that works on files consists of, from its first
    call to its last.  These are grammars of traces; they do not mention the programs. *)

From Verif Require Import Base CleanSpec Filter Filelist Spoof Prog File FileSpec.

Local Open Scope nat_scope.

(** ** One file *)

(** The name is one that is never touched, or it is clean already. *)
Definition left_alone (o : options_t) (p : str) : Prop :=
  exists dir base, last_component p dir base /\
    (base = bs "." \/ base = bs ".." \/
     sequence_run_filters (o_platform o) (o_sequence_to_use o) (Some base) = Ok (Some base)).

(** The target is in the way: another file, or the same one with several links. *)
Definition in_the_way (old new : stat) : Prop :=
  st_dev new <> st_dev old \/ st_ino new <> st_ino old \/ (1 < st_nlink old)%N.

(** What lstat of the target says when the way is free. *)
Definition way_is_free (old : stat) (r : stat + str) : Prop :=
  match r with inl new => ~ in_the_way old new | inr _ => True end.

Definition complaint (old new why : str) : event :=
  Ev (Print Stderr (bs "Cannot rename " ++ old ++ bs " to " ++ new ++ bs ": " ++ why ++ [Nb 10])) tt.

(** The announcement, if one is wanted. *)
Definition announcement_of (o : options_t) (old new : str) : list event :=
  if (0 <? o_verbose o)%N then [announced old new] else [].

(** What is said about the last component of [p] while it is cleaned. *)
Inductive commented (o : options_t) (p : str) : list event -> Prop :=
| commented_dots dir base : last_component p dir base -> base = bs "." \/ base = bs ".." -> commented o p []
| commented_name dir base : last_component p dir base -> base <> bs "." -> base <> bs ".." ->
    commented o p (map heard (remarks o base)).

(** The calls for path [p] once its last component is cleaned, and the path afterwards. *)
Inductive file_handled (o : options_t) (p : str) : list event -> str -> Prop :=
| done_clean : left_alone o p -> file_handled o p [] p
| done_gone new m : proper_rename o p new -> file_handled o p [Ev (Lstat p) (inr m)] p
| done_refused new a b : proper_rename o p new -> in_the_way a b ->
    file_handled o p [Ev (Lstat p) (inl a); Ev (Lstat new) (inl b); complaint p new (bs "file already exists")] p
| done_announced new a r : proper_rename o p new -> way_is_free a r -> o_dry_run o = true ->
    file_handled o p [Ev (Lstat p) (inl a); Ev (Lstat new) r; announced p new] p
| done_renamed new a r : proper_rename o p new -> way_is_free a r -> o_dry_run o = false ->
    file_handled o p ([Ev (Lstat p) (inl a); Ev (Lstat new) r] ++ announcement_of o p new ++ [Ev (Rename p new) None]) new
| done_failed new a r m : proper_rename o p new -> way_is_free a r -> o_dry_run o = false ->
    file_handled o p ([Ev (Lstat p) (inl a); Ev (Lstat new) r] ++ announcement_of o p new ++
                      [Ev (Rename p new) (Some m); complaint p new m]) p.

(** The calls for path [p], and the path afterwards. *)
Inductive file_done (o : options_t) (p : str) : list event -> str -> Prop :=
| file_done_intro w tr q : commented o p w -> file_handled o p tr q -> file_done o p (w ++ tr) q.

(** ** Names to pass over *)

(** Name [n], checked against [names] from position [k] on: whether it is passed over, and
    the position from which the next name is checked. *)
Inductive check (names : list str) (k : nat) (n : str) : bool -> nat -> Prop :=
| check_hidden : hidden n -> check names k n true k
| check_listed i : ~ hidden n -> k <= i -> nth_error names i = Some n ->
    (forall j, k <= j < i -> nth_error names j <> Some n) -> check names k n true (S i)
| check_passed : ~ hidden n -> (forall j, k <= j -> nth_error names j <> Some n) -> check names k n false 0.

(** ** Directories *)

(** What is known about a file from lstat; what was known before is kept if it fails. *)
Definition latest_stat (before : stat) (r : stat + str) : stat := match r with inl s => s | inr _ => before end.

(** Entry [n] of directory [p], cut off to fit a buffer. *)
Definition path_of_entry (p n : str) : str := firstn (length p + 1023) (p ++ bs "/" ++ n).

Inductive directory_done (o : options_t) (names : list str) : nat -> str -> list event -> nat -> Prop :=
| dir_gone k p m : directory_done o names k p [Ev (Lstat p) (inr m)] k
| dir_none k p st : st_kind st <> SDir -> directory_done o names k p [Ev (Lstat p) (inl st)] k
| dir_closed k p st m : st_kind st = SDir ->
    directory_done o names k p
      [Ev (Lstat p) (inl st); Ev (Opendir p) (NotOpened false m);
       Ev (Print Stderr (bs "unable to parse: " ++ m ++ [Nb 10])) tt] k
| dir_read k p st h tr k' : st_kind st = SDir -> entries_done o names p h st k tr k' ->
    directory_done o names k p (Ev (Lstat p) (inl st) :: Ev (Opendir p) (Opened h) :: tr ++ [Ev (Closedir h) tt]) k'
with entries_done (o : options_t) (names : list str) : str -> N -> stat -> nat -> list event -> nat -> Prop :=
| entries_end p h st k : entries_done o names p h st k [Ev (Readdir h) None] k
| entries_skip p h st k n k1 tr k' : check names k n true k1 -> entries_done o names p h st k1 tr k' ->
    entries_done o names p h st k (Ev (Readdir h) (Some n) :: tr) k'
| entries_next p h st k n k1 r t1 k2 t2 k' : check names k n false k1 ->
    entry_done o names k1 (path_of_entry p n) (latest_stat st r) t1 k2 ->
    entries_done o names p h (latest_stat st r) k2 t2 k' ->
    entries_done o names p h st k (Ev (Readdir h) (Some n) :: Ev (Lstat (path_of_entry p n)) r :: t1 ++ t2) k'
with entry_done (o : options_t) (names : list str) : nat -> str -> stat -> list event -> nat -> Prop :=
| entry_file k p st tr q : st_kind st = SReg \/ st_kind st = SOther /\ o_special o = true -> file_done o p tr q ->
    entry_done o names k p st tr k
| entry_special k p st : st_kind st = SOther -> o_special o = false -> entry_done o names k p st [] k
| entry_dir k p st tr q : st_kind st = SDir -> o_recurse o = false -> file_done o p tr q -> entry_done o names k p st tr k
| entry_deep k p st t1 q t2 k' : st_kind st = SDir -> o_recurse o = true -> file_done o p t1 q ->
    directory_done o names k q t2 k' -> entry_done o names k p st (t1 ++ t2) k'.

(** ** Arguments *)

Definition scanning (o : options_t) (f : str) : list event :=
  if (0 <? o_verbose o)%N then [Ev (Print Stdout (bs "Scanning: " ++ f ++ [Nb 10])) tt] else [].

Inductive argument_done (o : options_t) (names : list str) (k : nat) (f : str) : list event -> nat -> Prop :=
| arg_gone m : argument_done o names k f
    (scanning o f ++ [Ev (Lstat f) (inr m); Ev (Print Stderr (f ++ bs ": " ++ m ++ [Nb 10])) tt]) k
| arg_file st tr q : st_kind st = SReg \/ st_kind st = SOther /\ o_special o = true -> file_done o f tr q ->
    argument_done o names k f (scanning o f ++ Ev (Lstat f) (inl st) :: tr) k
| arg_special st : st_kind st = SOther -> o_special o = false ->
    argument_done o names k f (scanning o f ++ [Ev (Lstat f) (inl st)]) k
| arg_dir st t1 q t2 k' : st_kind st = SDir -> file_done o f t1 q -> directory_done o names k q t2 k' ->
    argument_done o names k f (scanning o f ++ Ev (Lstat f) (inl st) :: t1 ++ t2) k'.

Inductive arguments_done (o : options_t) (names : list str) : nat -> list str -> list event -> nat -> Prop :=
| args_none k : arguments_done o names k [] [] k
| args_more k f fs t1 k1 t2 k2 : argument_done o names k f t1 k1 -> arguments_done o names k1 fs t2 k2 ->
    arguments_done o names k (f :: fs) (t1 ++ t2) k2.

Definition ignored (c : config_t) : list str := match cf_ignore c with Some l => l | None => [] end.

(** ** Open directories *)

(** The directories open after the calls [tr], innermost first, with their handles. *)
Fixpoint still_open (tr : list event) (stack : list (str * N)) : list (str * N) :=
  match tr with
  | [] => stack
  | Ev (Opendir p) (Opened h) :: tr => still_open tr ((p, h) :: stack)
  | Ev (Closedir _) _ :: tr => still_open tr (tl stack)
  | _ :: tr => still_open tr stack
  end.

(** ** Serving the entries of a directory *)

(** What follows when readdir returns a name that is not passed over. *)
Definition entry_served (o : options_t) (names : list str) (top n : str) (rest : list event) : Prop :=
  exists r more, rest = Ev (Lstat (path_of_entry top n)) r :: more /\
    forall st, r = inl st -> (st_kind st = SOther -> o_special o = true) ->
      exists now later q, more = now ++ later /\ file_done o (path_of_entry top n) now q /\
        (st_kind st = SDir -> o_recurse o = true ->
           exists deep after k k', later = deep ++ after /\ directory_done o names k q deep k').

(** ** What may be asked and said *)

Definition stderr_line (o : options_t) (files : list str) (text : str) : Prop :=
  (exists base, In (Stderr, text) (remarks o base)) \/
  (exists old new why, proper_rename o old new /\
     text = bs "Cannot rename " ++ old ++ bs " to " ++ new ++ bs ": " ++ why ++ [Nb 10]) \/
  (exists why, text = bs "unable to parse: " ++ why ++ [Nb 10]) \/
  (exists f why, In f files /\ text = f ++ bs ": " ++ why ++ [Nb 10]).

Definition stdout_line (o : options_t) (files : list str) (text : str) : Prop :=
  ((0 < o_verbose o)%N /\ exists f, In f files /\ text = bs "Scanning: " ++ f ++ [Nb 10]) \/
  (((0 < o_verbose o)%N \/ o_dry_run o = true) /\
     exists old new, proper_rename o old new /\ text = old ++ bs " -> " ++ new ++ [Nb 10]).

(** The calls that working on [files] may consist of. *)
Definition asked (o : options_t) (files : list str) (c : call) : Prop :=
  match c with
  | Lstat _ | Opendir _ | Readdir _ | Closedir _ => True
  | Rename old new => o_dry_run o = false /\ proper_rename o old new
  | Print Stdout text => stdout_line o files text
  | Print Stderr text => stderr_line o files text
  | ReadStream _ => False
  end.

(** ** What may end the work early *)

(** The name was given as the last component of an argument, or read from a directory. *)
Definition name_met (files : list str) (tr : list event) (base : str) : Prop :=
  (exists f dir, In f files /\ last_component f dir base) \/
  (exists h, In (Ev (Readdir h) (Some base)) tr).

(** The cleaning of [base] ends the program. *)
Definition cleaning_fails (o : options_t) (base : str) (w : stop) : Prop :=
  match sequence_run_filters (o_platform o) (o_sequence_to_use o) (Some base) with
  | Ok _ => False
  | UB u => w = StopUB u
  | Exit n => w = StopExit n
  end.

(** The last calls of [tr]: opendir failed for lack of file descriptors, and the program
    said so. *)
Definition out_of_descriptors (tr : list event) : Prop :=
  exists before p m, tr = before ++ [Ev (Opendir p) (NotOpened true m);
                                     Ev (Print Stderr (bs "unable to parse: " ++ m ++ [Nb 10])) tt].

(** ** Seen from outside *)

(** What a program is about to do. *)
Inductive doing := Asking (c : call) | Stopping (w : stop) | Returning.
Definition head {A} (p : prog A) : doing :=
  match p with Call c _ => Asking c | Stop w => Stopping w | Ret _ => Returning end.
