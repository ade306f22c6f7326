(** * check-table (C76-C78) *)

From Verif Require Import Base BaseFacts Stdio Table TableSpec TableProofs Prog ParseTable ParseTableSpec ParseTableProofs
  TableFileSpec TableFileProofs CleanSpec PropParseTable CheckTable CheckSpec CheckProofs CheckProofs2.

Local Open Scope nat_scope.

(** ** C76 *)

(** What check-table prints and how it ends is what [check_session] says, and that leaves
    no choice. *)
Theorem C76_exactly_this_is_reported :
  forall percent posix args first second out res,
    check_session percent posix args first second out res <-> check_main percent posix args first second = (out, res).
Proof. exact check_main_exact. Qed.
Print Assumptions C76_exactly_this_is_reported.

Definition outcome (args : list string) (first second : table_file) : list (stream * str) * res N :=
  check_main (fun a b => if (a =? 4) && (b =? 500) then bs "0.80" else bs "?") false (map bs args) (fun _ => first) (fun _ => second).

Definition said (ls : list string) : list (stream * str) := map (fun l => (Stdout, bs l ++ [newline])) ls.
Definition complained (l : string) : stream * str := (Stderr, bs l ++ [newline]).

(** Codes that are out of order, doubled and collide in the table; a block for another
    language; a default. *)
Definition sample : list byte :=
  lines ["default _"; "start"; "0x42 bb"; "0x41 a"; "0x236 ccc"; "0x236 dd"; "end"; "start de"; "0x43 x"; "end"]%string.

Example C76_example :
  outcome ["-d"; "t.tbl"]%string (Readable sample) Absent =
  (said ["checking: t.tbl"; "warning - code 0x0041 appears after 0x0042"; "warning - code 0x0236 appears twice in a row";
         "skipping language subsection for de";
         "index: 0, key: 0x0236, data: dd"; "index: 65, key: 0x0041, data: a"; "index: 66, key: 0x0042, data: bb";
         "used: 4"; "available: 500"; "used percent: 0.80"; "hits: 4"; "misses: 0"; "seeks: 2"; "overwrites: 1"; "longest entry: 3";
         "default translation: _"; "maximum key: 0x0236"]%string, Ok 0%N).
Proof. vm_compute. reflexivity. Qed.

(** Rebuilt with 256 rows, where 0x41 and 0x141 collide; without hashing all is sought,
    but the rebuilt table is hashed. *)
Example C76_rebuilt :
  let file := Readable (lines ["start"; "0x41 a"; "0x141 b"; "end"]%string) in
  outcome ["t.tbl"; "-bdl"]%string file file =
  (said ["checking: t.tbl"; "index: 0, key: 0x0141, data: b"; "index: 65, key: 0x0041, data: a";
         "used: 2"; "available: 256"; "used percent: ?"; "hits: 2"; "misses: 0"; "seeks: 1"; "overwrites: 0"; "longest entry: 1";
         "default translation: (null)"; "maximum key: 0x0141"]%string, Ok 0%N) /\
  outcome ["-h"; "-z"]%string file file = (said ["check-table [-bdlhv] filename.tbl"]%string, Ok 0%N) /\
  outcome ["-v"]%string file file = (said ["please specify a file to operate on"]%string, Ok 255%N) /\
  outcome ["-z"; "t.tbl"]%string file file = ([complained "unknown option: ?"], Ok 255%N).
Proof. vm_compute. auto. Qed.

(** ** C77 *)

(** A file that is read through is loaded by detox, with just the entries and the default
    reported; one that is given up is not loaded.  (A block for a language, which is
    skipped here, may be used there.) *)
Theorem C77_check_agrees_with_loader :
  forall contents rs res locale,
    first_pass (Readable contents) rs res -> locale = [] \/ (forall l, ~ In (Skipped l) rs) ->
    match res with
    | None => parse_table locale contents = Ok None
    | Some (ds, size) => file_says locale contents ds /\ size = room contents /\
        exists t, parse_table locale contents = Ok (Some t) /\ (forall k, table_get t k = last_for k (entries ds)) /\
          t_maxdata t = longest (map snd (entries ds)) /\ t_default t = default_of None ds
    end.
Proof. exact first_pass_loader. Qed.
Print Assumptions C77_check_agrees_with_loader.

(** Without a warning about lengths the table is one that the filters can use without
    writing past their buffers (C07). *)
Theorem C77_no_warning_no_overrun :
  forall contents rs ds size locale,
    first_pass (Readable contents) rs (Some (ds, size)) ->
    locale = [] \/ (forall l, ~ In (Skipped l) rs) -> (forall a b, ~ In (Lengths_differ a b) rs) ->
    exists t, parse_table locale contents = Ok (Some t) /\ roomy t.
Proof. exact no_warning_roomy. Qed.
Print Assumptions C77_no_warning_no_overrun.

(** With -b, a file that does not change is complained about exactly when a code has two
    different texts; otherwise every entry is looked up once. *)
Theorem C77_second_look :
  forall contents rs ds size ps rs' res,
    first_pass (Readable contents) rs (Some (ds, size)) -> pieces contents ps ->
    recheck (fun k => last_for k (entries ds)) false ps rs' res ->
    (res = None <-> exists k d d', In (k, d) (entries ds) /\ In (k, d') (entries ds) /\ d <> d') /\
    (forall ks, res = Some ks -> ks = map fst (entries ds)).
Proof. exact recheck_same. Qed.
Print Assumptions C77_second_look.

(** A default longer than the entries is warned of, and really overruns the buffer of a
    filter; a code given twice fails the check with -b. *)
Example C77_example :
  fst (outcome ["t.tbl"]%string (Readable (lines ["default aaa"; "start"; "0x41 b"; "end"]%string)) Absent) =
  said ["checking: t.tbl"; "warning - table max length (1) doesn't match our calculation (3)";
        "used: 1"; "available: 500"; "used percent: ?"; "hits: 1"; "misses: 0"; "seeks: 0"; "overwrites: 0"; "longest entry: 1";
        "default translation: aaa"; "maximum key: 0x0041"]%string /\
  outcome ["-b"; "t.tbl"]%string (Readable sample) (Readable sample) =
  (said ["checking: t.tbl"; "warning - code 0x0041 appears after 0x0042"; "warning - code 0x0236 appears twice in a row";
         "skipping language subsection for de"]%string ++
   [complained "Failed to retrieve row 0x0236 ""ccc"" in resized translation table"], Ok 0%N).
Proof. vm_compute. auto. Qed.

(** ** C78 *)

(** One would want the check of a file that is not accepted to end in order, with a
    status other than success. *)
Theorem C78_rejected_files_are_handled_refuted :
  exists o name contents percent,
    parse_table [] contents = Ok None /\ k_builtin o = true /\
    check_file percent o name (Readable contents) (Readable contents) =
      ([(Stdout, bs "checking: t.tbl" ++ [newline]);
        (Stderr, bs "Failed to add row 0x0000 ""a"" to translation table" ++ [newline])], UB NullDeref).
Proof.
  exists (mkCheck true false true false), (bs "t.tbl"), (lines ["start"; "0 a"]%string), (fun _ _ => []).
  vm_compute. auto.
Qed.
Print Assumptions C78_rejected_files_are_handled_refuted.

(** Exactly with -b, and a file that could not be opened or was given up the first time,
    a null pointer is used; otherwise the status is 0, whatever was found. *)
Theorem C78_how_it_ends :
  forall percent o name first second,
    (forall status, snd (check_file percent o name first second) = Ok status -> status = 0%N) /\
    (forall status, snd (check_file percent o name first second) <> Exit status) /\
    (forall why, snd (check_file percent o name first second) = UB why <->
       why = NullDeref /\ k_builtin o = true /\ second <> Absent /\
       (forall contents, first = Readable contents -> parse_table [] contents = Ok None)).
Proof. exact check_ends. Qed.
Print Assumptions C78_how_it_ends.

(** A locked file; one that is not there. *)
Example C78_example :
  outcome ["-b"; "t.tbl"]%string (Locked (bs "Permission denied")) (Locked (bs "Permission denied")) =
  (said ["checking: t.tbl"]%string ++ [complained "Unable to open translation table: Permission denied"], UB NullDeref) /\
  outcome ["t.tbl"]%string (Locked (bs "Permission denied")) Absent =
  (said ["checking: t.tbl"]%string ++ [complained "Unable to open translation table: Permission denied"], Ok 0%N) /\
  outcome ["-b"; "t.tbl"]%string Absent Absent = (said ["checking: t.tbl"]%string, Ok 0%N).
Proof. vm_compute. auto. Qed.
