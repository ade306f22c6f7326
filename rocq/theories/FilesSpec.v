(** * Specification: lists of files in memory *)

From Verif Require Import Base Stdio Prog Warnings Mem MemSpec Words WordsSpec CFilelist.

Local Open Scope nat_scope.

(** [p] points to a list of these files, with room for [max], the next one to be read being
    number [cursor]; it consists of the blocks [own]. *)
Definition list_at (s : store_t) (p : ptr) (files : list str) (max cursor : nat) (own : list nat) : Prop :=
  exists array names,
    content s p [Adr (Some array); Num (Z.of_nat max); Num (Z.of_nat (length files)); Num (Z.of_nat cursor)] /\
    content s array (map (fun q => Adr (Some q)) names ++ repeat Any (max - length files)) /\
    Forall2 (fun q f => p_off q = 0 /\ cstr_at (s_heap s) q f) names files /\
    own = p_block p :: p_block array :: map p_block names /\ NoDup own /\
    cursor <= length files <= max /\ (Z.of_nat max <= int_max)%Z.

(** The cursor after reading. *)
Definition onward (files : list str) (cursor : nat) : nat := if cursor =? length files then 0 else S cursor.

(** The room after adding. *)
Definition roomier (files : list str) (max : nat) : nat := if length files =? max then max + 16 else max.

(** ** The life of a list *)

Inductive list_use := Adds (name : ptr) | Reads | Rewinds | Counts.
Inductive reply := File (f : option str) | Number (n : Z).

Section life.

Context {al : allocator}.

Fixpoint c_list_uses (p : ptr) (l : list list_use) : wmem (list reply) :=
  match l with
  | [] => wret []
  | Adds d :: l => let$ _ := c_filelist_put (Some p) d in c_list_uses p l
  | Reads :: l =>
    let$ q := c_filelist_get (Some p) in
    let$ x := (match q with Some q => let$ x := bytes (c_read q) in wret (Some x) | None => wret None end) in
    let$ r := c_list_uses p l in wret (File x :: r)
  | Rewinds :: l => let$ _ := c_filelist_reset (Some p) in c_list_uses p l
  | Counts :: l => let$ n := c_filelist_count (Some p) in let$ r := c_list_uses p l in wret (Number n :: r)
  end.

Definition c_list_life (l : list list_use) : wmem (list reply) :=
  let$ p := c_filelist_init in
  let$ r := c_list_uses p l in
  let$ _ := c_filelist_free (Some p) in
  wret r.

End life.

(** The same on lists; [text] is what the caller's strings are. *)
Fixpoint list_uses (text : ptr -> str) (files : list str) (cursor : nat) (l : list list_use) : list reply :=
  match l with
  | [] => []
  | Adds d :: l => list_uses text (files ++ [text d]) 0 l
  | Reads :: l => File (nth_error files cursor) :: list_uses text files (onward files cursor) l
  | Rewinds :: l => list_uses text files 0 l
  | Counts :: l => Number (Z.of_nat (length files)) :: list_uses text files cursor l
  end.
