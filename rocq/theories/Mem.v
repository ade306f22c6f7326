(** * Memory: blocks, pointers, and the functions of the C library used on strings

    The functions that handle names, once more (CFilters.v, CFile.v), now with the memory
    they work in: what malloc returns is a block of bytes not written yet, a pointer is a
    block and an offset, every read and write is checked, and free ends the life of a
    block.  malloc never returns the address of a block that was freed, so that a dangling
    pointer is always noticed.  malloc may fail, in which case the program ends. *)

From Verif Require Import Base Stdio Prog Warnings.

Local Open Scope nat_scope.

(** A byte in memory; None before it is written. *)
Definition cell := option byte.

(** The blocks malloc has returned, in order; None after free. *)
Definition heap := list (option (list cell)).

Record ptr := mkPtr { p_block : nat; p_off : nat }.

(** p + n *)
Definition plus (p : ptr) (n : nat) : ptr := mkPtr (p_block p) (p_off p + n).

(** ** Programs that use memory, and print *)

Definition mem (A : Type) : Type := heap -> talk (A * heap).

Definition mret {A} (a : A) : mem A := fun h => done (a, h).
Definition mbind {A B} (m : mem A) (k : A -> mem B) : mem B := fun h => let% (a, h') := m h in k a h'.
Notation "'let*' x := m 'in' k" := (mbind m (fun x => k))
  (at level 200, x pattern, m at level 100, k at level 200, right associativity).

(** Something that does not touch the memory. *)
Definition outside {A} (t : talk A) : mem A := fun h => let% a := t in done (a, h).

Fixpoint set_block (h : heap) (i : nat) (b : option (list cell)) : heap :=
  match h, i with
  | [], _ => []
  | _ :: r, O => b :: r
  | x :: r, S j => x :: set_block r j b
  end.

Fixpoint set_cell (cells : list cell) (i : nat) (b : byte) : list cell :=
  match cells, i with
  | [], _ => []
  | _ :: r, O => Some b :: r
  | x :: r, S j => x :: set_cell r j b
  end.

(** Whether there is memory for another block, and what strerror says if there is not.
    The heap holds everything that was allocated before, so that this decides separately
    for every allocation of a run. *)
Class allocator := refusal_of : heap -> N -> option str.

Definition out_of_memory (message : str) : talk unit := complain (bs "detox: out of memory: " ++ message).

(** src/wrapped.c:24-45 [wrapped_malloc] *)
Definition malloc {al : allocator} (n : N) : mem ptr := fun h =>
  match refusal_of h n with
  | None => done (mkPtr (length h) 0, h ++ [Some (repeat None (N.to_nat n))])
  | Some message => let% _ := out_of_memory message in quietly (Exit EXIT_FAILURE)
  end.

(** free(p) *)
Definition free (p : ptr) : mem unit := fun h =>
  match nth_error h (p_block p), p_off p with
  | Some (Some _), O => done (tt, set_block h (p_block p) None)
  | _, _ => quietly (UB BadPointer)
  end.

(** [*p] *)
Definition load (p : ptr) : mem byte := fun h =>
  match nth_error h (p_block p) with
  | Some (Some cells) =>
    match nth_error cells (p_off p) with
    | Some (Some b) => done (b, h)
    | Some None => quietly (UB Uninitialised)
    | None => quietly (UB ReadPastEnd)
    end
  | _ => quietly (UB BadPointer)
  end.

(** [*p = b] *)
Definition store (p : ptr) (b : byte) : mem unit := fun h =>
  match nth_error h (p_block p) with
  | Some (Some cells) =>
    if p_off p <? length cells then done (tt, set_block h (p_block p) (Some (set_cell cells (p_off p) b)))
    else quietly (UB BufferOverflow)
  | _ => quietly (UB BadPointer)
  end.

(** A loop: the body goes on with other values of its variables, or ends with a result.
    It is cut off after as many rounds as there are bytes in memory, and one more; no loop
    of the program needs that many (otherwise the theorems would not hold). *)
Fixpoint rounds {V A} (fuel : nat) (body : V -> mem (V + A)) (v : V) : mem A :=
  match fuel with
  | O => fun _ => quietly (UB Unending)
  | S fuel' =>
    let* x := body v in
    match x with
    | inl v' => rounds fuel' body v'
    | inr a => mret a
    end
  end.

Definition block_size (b : option (list cell)) : nat := match b with Some cells => length cells | None => 0 end.
Definition heap_size (h : heap) : nat := list_sum (map block_size h).

Definition while {V A} (body : V -> mem (V + A)) (v : V) : mem A := fun h => rounds (S (heap_size h)) body v h.

(** ** The C library *)

(** The string at [p], read up to its end. *)
Definition c_read (p : ptr) : mem str :=
  while (fun '(p, acc) =>
           let* c := load p in
           if beq c NUL then mret (inr (rev acc)) else mret (inl (plus p 1, c :: acc)))
        (p, []).

(** Bytes written from [p] on; the result is the pointer behind them. *)
Fixpoint c_write (p : ptr) (s : list byte) : mem ptr :=
  match s with
  | [] => mret p
  | b :: r => let* _ := store p b in c_write (plus p 1) r
  end.

Definition c_strlen (p : ptr) : mem N := let* s := c_read p in mret (strlen s).

(** src/wrapped.c:47-68 [wrapped_strdup] *)
Definition c_strdup {al : allocator} (p : ptr) : mem ptr :=
  let* s := c_read p in
  let* q := malloc (size_t (strlen s + 1)) in
  let* _ := c_write q (s ++ [NUL]) in
  mret q.

(** strdup of a literal *)
Definition c_strdup_of {al : allocator} (s : str) : mem ptr :=
  let* q := malloc (size_t (strlen s + 1)) in
  let* _ := c_write q (s ++ [NUL]) in
  mret q.

Definition c_strcpy (dst src : ptr) : mem unit :=
  let* s := c_read src in
  let* _ := c_write dst (s ++ [NUL]) in mret tt.

(** memcpy(dst, src, n) *)
Fixpoint c_memcpy (dst src : ptr) (n : nat) : mem unit :=
  match n with
  | O => mret tt
  | S n' =>
    let* c := load src in
    let* _ := store dst c in
    c_memcpy (plus dst 1) (plus src 1) n'
  end.

(** strncpy(dst, src, n): stops at the end of the string, and fills up with NUL *)
Fixpoint c_strncpy (dst src : ptr) (n : nat) : mem unit :=
  match n with
  | O => mret tt
  | S n' =>
    let* c := load src in
    if beq c NUL then let* _ := c_write dst (repeat NUL n) in mret tt
    else
      let* _ := store dst c in
      c_strncpy (plus dst 1) (plus src 1) n'
  end.

(** snprintf(dst, size, ...) of a text, with size > 0 *)
Definition c_snprintf (dst : ptr) (size : N) (text : str) : mem unit :=
  let* _ := c_write dst (firstn (N.to_nat size - 1) text ++ [NUL]) in mret tt.

(** strrchr(p, c) *)
Definition c_strrchr (p : ptr) (c : byte) : mem (option ptr) :=
  while (fun '(p, found) =>
           let* x := load p in
           let found := if beq x c then Some p else found in
           if beq x NUL then mret (inr found) else mret (inl (plus p 1, found)))
        (p, None).

(** strchr(p, c) *)
Definition c_strchr (p : ptr) (c : byte) : mem (option ptr) :=
  while (fun p =>
           let* x := load p in
           if beq x c then mret (inr (Some p))
           else if beq x NUL then mret (inr None)
           else mret (inl (plus p 1)))
        p.

(** strcmp(p, q) == 0 *)
Definition c_equal (p q : ptr) : mem bool :=
  while (fun '(p, q) =>
           let* x := load p in
           let* y := load q in
           if negb (beq x y) then mret (inr false)
           else if beq x NUL then mret (inr true)
           else mret (inl (plus p 1, plus q 1)))
        (p, q).
