(** * Specification: what a function leaves in memory *)

From Verif Require Import Base Stdio Prog Warnings File Filter Mem.

Local Open Scope nat_scope.

(** ** What is given *)

(** [cstr_at h p s]: [p] points to the string [s]. *)
Definition cstr_at (h : heap) (p : ptr) (s : str) : Prop :=
  exists cells rest, nth_error h (p_block p) = Some (Some cells) /\
    skipn (p_off p) cells = map Some s ++ Some NUL :: rest /\ nonul s.

(** More than this is never allocated at once. *)
Definition limit : N := 2 ^ 63.
Definition limited (al : allocator) : Prop := forall h n, refusal_of h n = None -> (N.of_nat (heap_size h) + n < limit)%N.
Definition bounded (h : heap) : Prop := (N.of_nat (heap_size h) < limit)%N.

(** A string that some block can hold. *)
Definition fits (s : str) : Prop := (strlen s + 1 < 2 ^ 64)%N.

(** What the operating system may answer: names in directories are C strings. *)
Definition fair (c : call) : answer c -> Prop :=
  match c with
  | Readdir _ => fun r => match r with Some name => nonul name | None => True end
  | _ => fun _ => True
  end.

Definition fair_event (e : event) : Prop := match e with Ev c r => fair c r end.

(** ** What is left *)

(** The blocks that were not freed. *)
Definition is_live (b : option (list cell)) : bool := match b with Some _ => true | None => false end.
Definition live (h : heap) : nat := length (filter is_live h).

(** A block that holds a string. *)
Definition holds (b : option (list cell)) (s : str) : Prop :=
  exists rest, b = Some (map Some s ++ Some NUL :: rest) /\ ~ In NUL s.

(** [h'] is [h], untouched, with further blocks.  One of them holds [r], and [q] points to
    it; [lost] of the others were not freed. *)
Definition hands_over (lost : nat) (h : heap) (q : ptr) (r : str) (h' : heap) : Prop :=
  exists a b c, h' = h ++ a ++ b :: c /\ q = mkPtr (length (h ++ a)) 0 /\ holds b r /\ live a + live c = lost.

(** [h'] is [h], untouched, with further blocks, [lost] of which were not freed. *)
Definition leaves_behind (lost : nat) (h h' : heap) : Prop :=
  exists a, h' = h ++ a /\ live a = lost.

(** What parse_file loses: the copy of a protected name, or the cleaned name if it is the
    name. *)
Definition lost_by_file (o : options_t) (filename : str) : nat :=
  let base := snd (split_path filename) in
  if is_protected base then 1
  else match sequence_run_filters (o_platform o) (o_sequence_to_use o) (Some base) with
       | Ok (Some cleaned) => if str_eqb base cleaned then 1 else 0
       | _ => 0
       end.

(** The directories opened, and the questions asked (with lstat). *)
Definition opens_directory (e : event) : bool :=
  match e with
  | Ev c r =>
    match c return answer c -> bool with
    | Opendir _ => fun r => match r with Opened _ => true | NotOpened _ _ => false end
    | _ => fun _ => false
    end r
  end.
Definition opened_in (tr : list event) : nat := length (filter opens_directory tr).

Definition inquires (e : event) : bool := match e with Ev (Lstat _) _ => true | _ => false end.
Definition asked_in (tr : list event) : nat := length (filter inquires tr).

(** The streams read, and the times that "." or ".." is printed. *)
Definition reads (e : event) : bool :=
  match e with
  | Ev c r =>
    match c return answer c -> bool with
    | ReadStream _ => fun r => match r with inl _ => true | inr _ => false end
    | _ => fun _ => false
    end r
  end.
Definition read_in (tr : list event) : nat := length (filter reads tr).

Definition dots (e : event) : bool := match e with Ev (Print Stdout text) _ => is_protected text | _ => false end.
Definition dotted_in (tr : list event) : nat := length (filter dots tr).

(** ** The same as on lists *)

Definition no_memory_left (message : str) : str := bs "detox: out of memory: " ++ message ++ [newline].

(** A function on names does in memory what another does on lists: it says the same and
    returns a pointer to the same name; what else it allocated is freed, and nothing else
    has changed.  Or a request is refused, when memory is [h] and what was allocated since. *)
Inductive in_memory {al : allocator} (h : heap) : talk (option ptr * heap) -> talk (option str) -> Prop :=
| im_name said q r h' : hands_over 0 h q r h' -> in_memory h (said, Ok (Some q, h')) (said, Ok (Some r))
| im_null said h' : leaves_behind 0 h h' -> in_memory h (said, Ok (None, h')) (said, Ok None)
| im_undefined said u : in_memory h (said, UB u) (said, UB u)
| im_exit said n : in_memory h (said, Exit n) (said, Exit n)
| im_memory said said' r message more n : refusal_of (h ++ more) n = Some message ->
    in_memory h (said ++ [(Stderr, no_memory_left message)], Exit EXIT_FAILURE) (said ++ said', r).

(** The program ends, because there is no memory left. *)
Definition gives_up {A} (message : str) : prog A :=
  Call (Print Stderr (no_memory_left message)) (fun _ => Stop (StopExit EXIT_FAILURE)).

(** A program in memory has come as far as a program on lists. *)
Definition as_far {A} (p : prog (A * heap)) (q : prog A) : Prop :=
  match p, q with
  | Ret (a, _), Ret b => a = b
  | Stop w, Stop w' => w = w'
  | Call c _, Call c' _ => c = c'
  | _, _ => False
  end.

Section executions.

Context {al : allocator} {A B S : Type}.
Variable step : S -> forall c, answer c -> S -> Prop.
Variable interference : S -> S -> Prop.

(** The last call is the message, nothing follows. *)
Definition ended_without_memory (q : prog B) (s : S) (tr : list event) (s' : S) (p' : prog A) : Prop :=
  exists before message h n s1 s2 q',
    refusal_of h n = Some message /\
    tr = before ++ [Ev (Print Stderr (no_memory_left message)) tt] /\
    p' = Stop (StopExit EXIT_FAILURE) /\
    runs step interference q s before s1 q' /\ interference s1 s2 /\ step s2 (Print Stderr (no_memory_left message)) tt s'.

End executions.
