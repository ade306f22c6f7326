(** * Specification: the life of a table in memory *)

From Verif Require Import Base Stdio Table TableSpec Prog Warnings Mem MemSpec Words WordsSpec CTable.

Local Open Scope nat_scope.

(** What a caller may do with a table: store the string at an address, look up, replace the
    table by a larger or smaller one and free it, reset the statistics. *)
Inductive use := Puts (key : N) (text : ptr) | Gets (key : N) | Resizes (rows : Z) (hashed : bool) | Resets.

Section life.

Context {al : allocator}.

(** The caller reads what a lookup gives. *)
Definition c_answer (q : option ptr) : wmem (option str) :=
  match q with
  | Some q => let$ x := bytes (c_read q) in wret (Some x)
  | None => wret None
  end.

Fixpoint c_uses (p : ptr) (l : list use) : wmem (ptr * list (option str)) :=
  match l with
  | [] => wret (p, [])
  | Puts k d :: l => let$ _ := c_table_put (Some p) k d in c_uses p l
  | Gets k :: l =>
    let$ q := c_table_get (Some p) k in
    let$ x := c_answer q in
    let$ (p', answers) := c_uses p l in wret (p', x :: answers)
  | Resizes n hashed :: l =>
    let$ q := c_table_resize (Some p) n (if hashed then 1 else 0)%Z in
    let$ _ := c_table_free (Some p) in
    c_uses q l
  | Resets :: l => let$ _ := c_table_reset p in c_uses p l
  end.

(** From beginning to end. *)
Definition c_life (n : Z) (l : list use) : wmem (list (option str)) :=
  let$ p := c_table_init n in
  let$ (p, answers) := c_uses p l in
  let$ _ := c_table_free (Some p) in
  wret answers.

End life.

(** The same on lists; [text] is what the caller's strings are. *)
Fixpoint uses (text : ptr -> str) (t : table) (l : list use) : table * list (option str) :=
  match l with
  | [] => (t, [])
  | Puts k d :: l => uses text (fst (table_put t k (text d))) l
  | Gets k :: l => (fst (uses text t l), table_get t k :: snd (uses text t l))
  | Resizes n hashed :: l => uses text (table_resize t n hashed) l
  | Resets :: l => uses text t l
  end.

(** Keys are unsigned ints, sizes ints; strings have a length that is an int. *)
Definition usable (h : heap) (text : ptr -> str) (u : use) : Prop :=
  match u with
  | Puts k d => (k < 2 ^ 32)%N /\ cstr_at h d (text d) /\ (strlen (text d) < 2 ^ 31)%N
  | Resizes n _ => (n <= int_max)%Z
  | _ => True
  end.

(** The stores. *)
Definition stores (text : ptr -> str) (l : list use) : list (N * str) :=
  flat_map (fun u => match u with Puts k d => [(k, text d)] | _ => [] end) l.

Definition resizes (u : use) : Prop := exists n hashed, u = Resizes n hashed.

(** The stores that replace the text of a former one. *)
Definition replacing (l : list (N * str)) : nat := length l - length (nodup N.eq_dec (map fst l)).

(** [n] lookups *)
Fixpoint c_lookups (p : ptr) (key : N) (n : nat) : wmem unit :=
  match n with
  | O => wret tt
  | S n => let$ _ := c_table_get (Some p) key in c_lookups p key n
  end.
