(** * Vocabulary for what a dry run announces *)

From Verif Require Import Base Prog File FS FileSpec TidySpec.

(** Files of a kind that is worked on *)
Definition dealt_with (w : world) (o : options_t) (i : inode) : Prop :=
  kind_of w i = KDir \/ kind_of w i = KReg \/ o_special o = true.

(** [inside w o t p P]: [P] is the path of a file that a walk through the directory [p] comes to. *)
Inductive inside (w : world) (o : options_t) (t : tree) : str -> str -> Prop :=
| inside_here p i n j : lstat_inode w t p = Some i -> kind_of w i = KDir -> In (mkLink i n j) (links t) -> ~ hidden n ->
    dealt_with w o j -> inside w o t p (p ++ bs "/" ++ n)
| inside_deeper p i n j P : lstat_inode w t p = Some i -> kind_of w i = KDir -> In (mkLink i n j) (links t) -> ~ hidden n ->
    kind_of w j = KDir -> o_recurse o = true -> inside w o t (p ++ bs "/" ++ n) P -> inside w o t p P.

(** The paths that a run on [fs] comes to *)
Definition come_to (w : world) (o : options_t) (t : tree) (fs : list str) (P : str) : Prop :=
  exists f i, In f fs /\ lstat_inode w t f = Some i /\ dealt_with w o i /\ (P = f \/ kind_of w i = KDir /\ inside w o t f P).

Definition printed (tr : list event) (text : str) : Prop := In (Ev (Print Stdout text) tt) tr.

Definition arrow (old new : str) : str := old ++ bs " -> " ++ new ++ [Nb 10].
