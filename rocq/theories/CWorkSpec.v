(** * Specification: files, directories and arguments with lists and sequence in memory *)

From Verif Require Import Base Stdio Filter Filelist Prog Warnings File FileSpec Inline Startup Main Mem MemSpec Words WordsSpec FilesSpec LinkedSpec CLoadSpec CReviewSpec CRunSpec.

Local Open Scope nat_scope.

(** ** What is in memory when work begins *)

(** NULL, or the address of this list of files; it consists of the blocks [own]. *)
Definition listed (s : store_t) (p : option ptr) (l : option filelist) (own : list nat) : Prop :=
  match p, l with
  | None, None => own = []
  | Some p, Some _ => usable_list l /\ exists max, list_at s p (items l) max (cursor l) own
  | _, _ => False
  end.

(** The sequence [q], the files to ignore [ign] and the files [fs] are where the members of the
    options point to; no more than [k] lookups were made in any table. *)
Definition set_up (literal : str -> ptr) (s : store_t) (sequence ignore files : option ptr) (q : sequence_t) (ign fs : option filelist)
  (k : nat) (sown iown fown : list nat) : Prop :=
  (exists p, sequence = Some p /\ ready_at s p q k sown) /\ Forall familiar (s_filters q) /\ literals_in (s_heap s) literal run_literals /\
  listed s ignore ign iown /\ listed s files fs fown /\ NoDup (sown ++ iown ++ fown).

(** ** The names that are cleaned *)

(** The lines of a stream, cut into pieces that are not too long *)
Fixpoint pieces (schar : bool) (fuel : nat) (input : str) : list str :=
  match fuel with
  | O => []
  | S fuel =>
    match read_piece schar input with
    | Ok (Some p) => pc_text p :: pieces schar fuel (pc_rest p)
    | _ => []
    end
  end.

(** A name is not cleaned before it is known that there is such a file; the pieces of a stream,
    not before it is read. *)
Definition names_of (schar : bool) (e : event) : list str :=
  match e with
  | Ev (Lstat path) _ => [snd (split_path path)]
  | Ev (ReadStream _) (inl bytes) => pieces schar (S (length bytes)) bytes
  | _ => []
  end.

Definition names_in (schar : bool) (tr : list event) : list str := flat_map (names_of schar) tr.

(** So many names that the number of lookups may be more than an int can hold *)
Definition worn (pf : platform) (q : sequence_t) (k : nat) (tr : list event) : Prop :=
  (int_max < Z.of_nat (k + lookups pf (s_filters q) (names_in (p_schar pf) tr)))%Z.

(** ** The work on lists *)

(** src/detox.c:88-130, the end of [Main.main] *)
Definition work (fuel : nat) (o : options_t) (names : list str) (ign : option filelist) : prog N :=
  if negb (o_is_inline_mode o) then
    let! _ := process_arguments fuel o names ign in Ret EXIT_SUCCESS
  else match names with
  | _ :: _ => let! _ := inline_arguments o names in Ret EXIT_SUCCESS
  | [] => let! _ := parse_inline None o in Ret EXIT_SUCCESS
  end.

(** ** How a program ends *)

(** It has printed that there is no memory left, and ends; until then it had done what the
    program on lists does. *)
Definition ends_short {al : allocator} {A B S} (short : heap -> N -> Prop) (step : S -> forall c, answer c -> S -> Prop) (interference : S -> S -> Prop)
  (q : prog B) (s : S) (tr : list event) (s' : S) (p' : prog A) : Prop :=
  exists before message h n s1 s2 q',
    refusal_of h n = Some message /\ short h n /\
    tr = before ++ [Ev (Print Stderr (no_memory_left message)) tt] /\
    p' = Stop (StopExit EXIT_FAILURE) /\
    runs step interference q s before s1 q' /\ interference s1 s2 /\ step s2 (Print Stderr (no_memory_left message)) tt s'.

(** A program in memory has come as far as a program on lists. *)
Definition as_far_as {A} (p : prog (A * store_t)) (q : prog A) : Prop :=
  match p, q with
  | Ret (a, _), Ret b => a = b
  | Stop w, Stop w' => w = w'
  | Call c _, Call c' _ => c = c'
  | _, _ => False
  end.

(** Its next call is to say that a request for memory was refused. *)
Definition at_a_loss {al : allocator} {A} (short : heap -> N -> Prop) (p : prog A) : Prop :=
  exists message h n, refusal_of h n = Some message /\ short h n /\ p = gives_up message.

(** The memory it had, and more *)
Definition more_than (s : store_t) (h : heap) (n : N) : Prop := exists more, h = s_heap s ++ more.
