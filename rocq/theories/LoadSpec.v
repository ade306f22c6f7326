(** * Specification: loading a table into memory *)

From Verif Require Import Base Stdio Table ParseTable ParseTableSpec Prog Warnings Mem MemSpec Words WordsSpec.

Local Open Scope nat_scope.

(** Like [ends], of functions that also print. *)
Inductive comes_to {al : allocator} {A} (R : heap -> N -> Prop) (Q : list (stream * str) -> A -> store_t -> Prop) : talk (A * store_t) -> Prop :=
| comes_done said a s : Q said a s -> comes_to R Q (said, Ok (a, s))
| comes_refused h n message : refusal_of h n = Some message -> R h n -> comes_to R Q ([(Stderr, no_memory_left message)], Exit EXIT_FAILURE).

Definition sets_default (d : directive) : bool := match d with Default _ => true | _ => false end.

(** The default texts in a file that another default follows. *)
Fixpoint defaults_lost (ds : list directive) : nat :=
  match ds with
  | [] => 0
  | Default (Some _) :: ds => (if existsb sets_default ds then 1 else 0) + defaults_lost ds
  | _ :: ds => defaults_lost ds
  end.

(** The bytes of the texts. *)
Definition text_bytes (ds : list directive) : nat :=
  list_sum (map (fun d => match d with Entry _ x | Default (Some x) => length x + 1 | _ => 0 end) ds).

(** The bytes that loading a file can take: the table, its rows, two buffers and the texts. *)
Definition loading_size (contents : list byte) (ds : list directive) : nat :=
  64 + 16 * room contents + 2048 + text_bytes ds.
