(** * Bytes, C strings and outcomes

    Shared vocabulary of the model.  A C string is the list of the bytes that
    precede its terminating NUL; [nonul] says that a list is such a string. *)

From Coq Require Export List Bool Arith NArith ZArith Lia.
From Coq Require Export Strings.String Strings.Ascii Strings.Byte Init.Byte.
Export ListNotations.
(* [List] names win over [String] names. *)
From Coq Require Export List.

Definition byte := Byte.byte.
Definition str := list byte.

(** Literal notation: [bs "abc"] is the C string "abc". *)
Definition bs (s : string) : str := list_byte_of_string s.

(** Value of a byte as [unsigned char]. *)
Definition bN (b : byte) : N := Byte.to_N b.

(** The byte with a given value, reduced modulo 256 (conversion to [char]). *)
Definition Nb (n : N) : byte :=
  match Byte.of_N (n mod 256) with Some b => b | None => x00 end.

Definition NUL : byte := x00.

Definition beq (a b : byte) : bool := Byte.eqb a b.
Arguments beq (_ _)%byte_scope.

(** strcmp(a, b) == 0 *)
Fixpoint str_eqb (a b : str) : bool :=
  match a, b with
  | [], [] => true
  | x :: a', y :: b' => beq x y && str_eqb a' b'
  | _, _ => false
  end.

(** What a reader of a C string sees of a buffer: everything before the first
    NUL. *)
Fixpoint cstr (l : list byte) : str :=
  match l with
  | [] => []
  | c :: r => if beq c NUL then [] else c :: cstr r
  end.

(** A list that is the contents of a C string. *)
Definition nonul (s : str) : Prop := ~ In NUL s.

(** Reasons for undefined behaviour. *)
Inductive ub : Type :=
| BufferOverflow      (* write past the end of an allocated buffer *)
| BufferUnderread     (* read before the start of a buffer *)
| ReadPastEnd         (* read past the terminating NUL *)
| Uninitialised       (* use of an unset variable *)
| NullDeref
| IntOverflow         (* result of int arithmetic out of range *)
| BadPointer          (* use of memory that is not allocated, or no longer *)
| Unending.           (* a loop of Mem.v that is not over when it should be *)

(** Outcome of a C function: a value, undefined behaviour, or process exit. *)
Inductive res (A : Type) : Type :=
| Ok (a : A)
| UB (why : ub)
| Exit (code : N).
Arguments Ok {A} a.
Arguments UB {A} why.
Arguments Exit {A} code.

Definition bind {A B} (m : res A) (k : A -> res B) : res B :=
  match m with
  | Ok a => k a
  | UB w => UB w
  | Exit c => Exit c
  end.

Notation "'do' x <- m ; k" := (bind m (fun x => k))
  (at level 200, x name, m at level 100, k at level 200, right associativity).

(** EXIT_FAILURE *)
Definition EXIT_FAILURE : N := 1.
Definition EXIT_SUCCESS : N := 0.

(** ** Output buffers

    A buffer under construction is its capacity (the malloc'ed size) and the
    bytes written so far, last one first.  Writing at index [length acc] is
    defined only inside the capacity. *)

Definition wr (cap : N) (acc : list byte) (b : byte) : res (list byte) :=
  if (N.of_nat (length acc) <? cap)%N then Ok (b :: acc) else UB BufferOverflow.

Arguments wr _%N_scope _ _%byte_scope.

Fixpoint wrs (cap : N) (acc : list byte) (s : str) : res (list byte) :=
  match s with
  | [] => Ok acc
  | b :: r => do a <- wr cap acc b; wrs cap a r
  end.

(** [*output_walk = '\0'; return output;]: the terminator must fit too; the
    caller sees the bytes before the first NUL. *)
Definition finish (cap : N) (acc : list byte) : res str :=
  do a <- wr cap acc NUL; Ok (cstr (rev a)).

(** size_t arithmetic wraps modulo 2^64. *)
Definition size_t (n : N) : N := (n mod 2 ^ 64)%N.

Definition strlen (s : str) : N := N.of_nat (length s).
