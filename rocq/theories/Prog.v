(** * Programs that talk to the operating system

    A program is a tree of system and library calls.  Its executions are the paths
    through the tree; a path may stop anywhere, so a statement about all paths is a
    statement about every point at which the process may be killed. *)

From Verif Require Import Base.

(** What lstat reports (src/file.c and src/detox.c use st_dev, st_ino, st_nlink,
    S_ISDIR and S_ISREG only). *)
Inductive skind := SDir | SReg | SOther.
Record stat := mkStat { st_dev : N; st_ino : N; st_nlink : N; st_kind : skind }.

Definition isdir (s : stat) : bool := match st_kind s with SDir => true | _ => false end.
Definition isreg (s : stat) : bool := match st_kind s with SReg => true | _ => false end.

Inductive stream := Stdout | Stderr.

(** The calls.  [Lstat] has no error number: the code never looks at it except for
    printing in main, where the text of strerror is part of the answer. *)
Inductive call :=
| Lstat (path : str)
| Rename (old new : str)
| Opendir (path : str)
| Readdir (handle : N)
| Closedir (handle : N)
| Print (out : stream) (text : str)
| ReadStream (path : option str).    (* fopen "r" and read to the end; None is stdin *)

(** opendir: a handle, or an error with its strerror text; EMFILE is singled out. *)
Inductive opened := Opened (handle : N) | NotOpened (emfile : bool) (message : str).

(** Errors carry the text strerror gives for errno. *)
Definition answer (c : call) : Type :=
  match c with
  | Lstat _ => stat + str
  | Rename _ _ => option str      (* None: success *)
  | Opendir _ => opened
  | Readdir _ => option str
  | Closedir _ => unit
  | Print _ _ => unit
  | ReadStream _ => str + str     (* contents, or error text *)
  end.

(** How a program can end other than by returning: undefined behaviour, exit(), or
    running out of the fuel that bounds the model's loops (in which case the real
    program goes on). *)
Inductive stop := StopUB (why : ub) | StopExit (code : N) | StopFuel.

Inductive prog (A : Type) : Type :=
| Ret (a : A)
| Stop (why : stop)
| Call (c : call) (k : answer c -> prog A).
Arguments Ret {A} a.
Arguments Stop {A} why.
Arguments Call {A} c k.

Fixpoint pbind {A B} (p : prog A) (f : A -> prog B) : prog B :=
  match p with
  | Ret a => f a
  | Stop w => Stop w
  | Call c k => Call c (fun r => pbind (k r) f)
  end.

Notation "'let!' x := p 'in' q" := (pbind p (fun x => q))
  (at level 200, x pattern, p at level 100, q at level 200, right associativity).

Definition sys (c : call) : prog (answer c) := Call c (fun r => Ret r).
Definition print (out : stream) (text : str) : prog unit := Call (Print out text) (fun _ => Ret tt).

(** A library function without system calls. *)
Definition lift {A} (r : res A) : prog A :=
  match r with Ok a => Ret a | UB w => Stop (StopUB w) | Exit c => Stop (StopExit c) end.

(** ** Programs that print

    Library functions that do nothing but compute and print: the outcome is what is
    printed, in order, and a result. *)
Definition talk (A : Type) : Type := (list (stream * str) * res A)%type.

Definition say (out : stream) (text : str) : talk unit := ([(out, text)], Ok tt).
Definition quietly {A} (r : res A) : talk A := ([], r).
Definition tbind {A B} (m : talk A) (k : A -> talk B) : talk B :=
  match m with
  | (o, Ok a) => let (o', r) := k a in (o ++ o', r)
  | (o, UB w) => (o, UB w)
  | (o, Exit c) => (o, Exit c)
  end.
Notation "'let%' x := p 'in' q" := (tbind p (fun x => q))
  (at level 200, x pattern, p at level 100, q at level 200, right associativity).
Definition done {A} (a : A) : talk A := quietly (Ok a).

(** Such a function as part of a program. *)
Fixpoint told {A} (texts : list (stream * str)) (p : prog A) : prog A :=
  match texts with
  | [] => p
  | (out, text) :: rest => Call (Print out text) (fun _ => told rest p)
  end.
Definition talking {A} (m : talk A) : prog A := told (fst m) (lift (snd m)).

(** ** Executions *)

(** A call together with its answer. *)
Inductive event := Ev (c : call) (r : answer c).

(** What is printed, as events. *)
Definition heard (m : stream * str) : event := Ev (Print (fst m) (snd m)) tt.

Section runs.
  Context {A S : Type}.
  (** [step s c r s']: in state [s] of the outside world, call [c] may answer [r] and
      leave state [s']. *)
  Variable step : S -> forall c, answer c -> S -> Prop.
  (** What others may do to the outside world between two calls. *)
  Variable interference : S -> S -> Prop.

  (** [runs p s tr s' p']: from state [s], program [p] can do the calls [tr], reaching
      state [s'] with [p'] still to be run. *)
  Fixpoint runs (p : prog A) (s : S) (tr : list event) (s' : S) (p' : prog A) : Prop :=
    (tr = [] /\ s' = s /\ p' = p) \/
    match p with
    | Call c k =>
      exists s0 r s1 tr', interference s s0 /\ step s0 c r s1 /\ tr = Ev c r :: tr' /\ runs (k r) s1 tr' s' p'
    | _ => False
    end.
End runs.

(** A world without anybody else. *)
Definition alone {S} (s s' : S) : Prop := s' = s.

(** A world in which every call may answer anything. *)
Definition anything (s : unit) (c : call) (r : answer c) (s' : unit) : Prop := True.

(** [trace_of p tr p']: [tr] is a path through [p], whatever the answers. *)
Definition trace_of {A} (p : prog A) (tr : list event) (p' : prog A) : Prop :=
  runs anything alone p tt tr tt p'.
