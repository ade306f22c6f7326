(** * Specification: running a sequence of linked filters in memory *)

From Verif Require Import Base Stdio Table CleanUtf8 Filter Prog Warnings Startup Mem MemSpec Words WordsSpec FilesSpec LinkedSpec CLoadSpec CReviewSpec.

Local Open Scope nat_scope.

(** The string literals of src/clean_utf_8.c *)
Definition run_literals : list str := map bs ["_hidden_null_"; "_"]%string.

(** The length of the longest name that is passed to one of the filters.  There is no more
    than one lookup for each byte. *)
Fixpoint longest (pf : platform) (fs : list filter_t) (name : str) : nat :=
  match fs with
  | [] => 0
  | f :: fs =>
    Nat.max (length name) (match snd (filter_run_says pf f (Some name)) with Ok (Some name') => longest pf fs name' | _ => 0 end)
  end.

(** What a function does to the heap. *)
Definition heap_of {A} (r : talk (A * store_t)) : talk (A * heap) := let% (a, s) := r in done (a, s_heap s).

(** The sequence is in the same place and the same as before, and nothing else has changed,
    except for no more than [n] further lookups in its tables, and new memory. *)
Definition still_ready (s : store_t) (p : ptr) (q : sequence_t) (k n : nat) (own : list nat) (s' : store_t) : Prop :=
  ready_at s' p q (k + n) own /\ same_but own s s' /\ exists more, s_heap s' = s_heap s ++ more.

(** ** Many names, one after the other *)

Fixpoint run_all_says (pf : platform) (q : sequence_t) (names : list str) : talk (list (option str)) :=
  match names with
  | [] => done []
  | name :: names =>
    let% r := sequence_run_says pf (Some q) (Some name) in
    let% rs := run_all_says pf q names in
    done (r :: rs)
  end.

(** No more than one lookup for each byte of the longest name, for each name *)
Fixpoint lookups (pf : platform) (fs : list filter_t) (names : list str) : nat :=
  match names with
  | [] => 0
  | name :: names => longest pf fs name + lookups pf fs names
  end.

(** ** From the options to a clean name *)

(** src/detox.c:43-82, then src/file.c:70 *)
Definition clean_says (sys : system) (file name : option str) (filename : str) : talk (option str) :=
  let% (c, q) := prepare_says sys file name in
  sequence_run_says (m_platform sys) (Some q) (Some filename).

(** Memory with a sequence that is ready for use, and more *)
Definition once_prepared (s : store_t) (h : heap) (n : N) : Prop := exists b a s1, prepares s b a s1 /\ beyond s1 h n.

(** The name is in new memory; what was there before is as it was. *)
Definition cleans (s : store_t) (r : option str) (a : option ptr) (s' : store_t) : Prop :=
  string_in (s_heap s') a r /\ (forall x, In x (block_list [a]) -> length (s_heap s) <= x) /\
  (forall x, x < length (s_heap s) -> nth_error (s_heap s') x = nth_error (s_heap s) x /\ s_words s' x = s_words s x).
