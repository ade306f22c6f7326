(** * Memory: structures and arrays of pointers

    A block of memory (Mem.v) may hold a structure or an array instead of a string.  What it
    holds then is recorded beside the heap: a list of words, one for each member.  Size and
    life of the block are those of the heap, so that malloc and free work on it as on any
    other block. *)

From Verif Require Import Base Stdio Prog Warnings Mem.

Local Open Scope nat_scope.

(** A member: cleared by memset, or assigned. *)
Inductive word := Zero | Int (z : Z) | Ptr (p : ptr).

(** None before the member is written. *)
Definition words := nat -> list (option word).

Record store_t := mkStore { s_heap : heap; s_words : words }.

Definition wmem (A : Type) : Type := store_t -> talk (A * store_t).

Definition wret {A} (a : A) : wmem A := fun s => done (a, s).
Definition wbind {A B} (m : wmem A) (k : A -> wmem B) : wmem B := fun s => let% (a, s') := m s in k a s'.
Notation "'let$' x := m 'in' k" := (wbind m (fun x => k))
  (at level 200, x pattern, m at level 100, k at level 200, right associativity).

Definition wfail {A} (why : ub) : wmem A := fun _ => quietly (UB why).

(** Functions on strings. *)
Definition bytes {A} (m : mem A) : wmem A := fun s => let% (a, h) := m (s_heap s) in done (a, mkStore h (s_words s)).
Definition saying (t : talk unit) : wmem unit := fun s => let% _ := t in done (tt, s).

Definition update (w : words) (b : nat) (l : list (option word)) : words := fun i => if i =? b then l else w i.

Fixpoint set_nth {A} (l : list A) (i : nat) (a : A) : list A :=
  match l, i with
  | [], _ => []
  | _ :: r, O => a :: r
  | x :: r, S j => x :: set_nth r j a
  end.

(** malloc of [size] bytes that are [k] members *)
Definition new_words {al : allocator} (size : N) (k : nat) : wmem ptr :=
  let$ p := bytes (malloc size) in
  fun s => done (p, mkStore (s_heap s) (update (s_words s) (p_block p) (repeat None k))).

(** The members of the block at [p]. *)
Definition members (p : ptr) : wmem (list (option word)) := fun s =>
  match nth_error (s_heap s) (p_block p), p_off p with
  | Some (Some _), O => done (s_words s (p_block p), s)
  | _, _ => quietly (UB BadPointer)
  end.

Definition fetch (p : ptr) (i : nat) : wmem word :=
  let$ l := members p in
  match nth_error l i with
  | Some (Some w) => wret w
  | Some None => wfail Uninitialised
  | None => wfail ReadPastEnd
  end.

Definition assign (p : ptr) (i : nat) (w : word) : wmem unit :=
  let$ l := members p in
  if i <? length l then fun s => done (tt, mkStore (s_heap s) (update (s_words s) (p_block p) (set_nth l i (Some w))))
  else wfail BufferOverflow.

(** memset(p, 0, ...) over the first [k] members *)
Definition clear (p : ptr) (k : nat) : wmem unit :=
  let$ l := members p in
  if k <=? length l then fun s => done (tt, mkStore (s_heap s) (update (s_words s) (p_block p) (repeat (Some Zero) k ++ skipn k l)))
  else wfail BufferOverflow.

Definition int_at (p : ptr) (i : nat) : wmem Z :=
  let$ w := fetch p i in
  match w with Zero => wret 0%Z | Int z => wret z | Ptr _ => wfail BadPointer end.

Definition ptr_at (p : ptr) (i : nat) : wmem (option ptr) :=
  let$ w := fetch p i in
  match w with Zero => wret None | Ptr q => wret (Some q) | Int _ => wfail BadPointer end.

Definition word_of (p : option ptr) : word := match p with Some q => Ptr q | None => Zero end.

(** Following a pointer. *)
Definition deref (p : option ptr) : wmem ptr := match p with Some q => wret q | None => wfail NullDeref end.

(** An index into an array. *)
Definition index (i : Z) : wmem nat := if (i <? 0)%Z then wfail BufferUnderread else wret (Z.to_nat i).

(** int, unsigned int, size_t *)
Definition int_max : Z := 2 ^ 31 - 1.
Definition int_of (n : N) : Z := let m := (Z.of_N n mod 2 ^ 32)%Z in if (m <=? int_max)%Z then m else (m - 2 ^ 32)%Z.
Definition unsigned_of (z : Z) : N := Z.to_N (z mod 2 ^ 32).
Definition size_of (z : Z) : N := Z.to_N (z mod 2 ^ 64).

Definition int_sum (a b : Z) : wmem Z := if (a + b <=? int_max)%Z then wret (a + b)%Z else wfail IntOverflow.

(** [p->i++] *)
Definition incr (p : ptr) (i : nat) : wmem unit :=
  let$ n := int_at p i in
  let$ n := int_sum n 1 in
  assign p i (Int n).

(** Loops, as in Mem.v *)
Fixpoint wrounds {V A} (fuel : nat) (body : V -> wmem (V + A)) (v : V) : wmem A :=
  match fuel with
  | O => wfail Unending
  | S fuel' =>
    let$ x := body v in
    match x with
    | inl v' => wrounds fuel' body v'
    | inr a => wret a
    end
  end.

Definition wwhile {V A} (body : V -> wmem (V + A)) (v : V) : wmem A := fun s => wrounds (S (heap_size (s_heap s))) body v s.
