(** * What check-table is supposed to report *)

From Verif Require Import Base Stdio Table TableSpec Prog ParseTable ParseTableSpec TableFileSpec EscapeSpec GenSpec MainSpec CheckTable.

Local Open Scope nat_scope.

(** ** Remarks *)

Inductive remark :=
| Checking (name : str)
| Unopened (message : str)
| Skipped (language : str)
| Out_of_order (code last : N)
| Repeated (code : N)
| Lengths_differ (table calculated : nat)
| Not_added (code : N) (text : str)
| Not_found (code : N) (text : str)
| Row_shown (index : nat) (contents : option (N * str))
| Figure (label : string) (n : nat)
| Percent (used available : nat)
| Default_is (text : option str)
| Greatest_code (code : N).

(** A code in hexadecimal, with four digits at least. *)
Definition in_hex (big : bool) (n : N) (s : str) : Prop :=
  exists ds, s = bs "0x" ++ ds /\ digits 16 ds n /\ (if big then upper_case ds else lower_case ds) /\
    (length ds = 4 \/ 4 < length ds /\ exists c r, ds = c :: r /\ c <> "0"%byte).

Definition quoted (s : str) : str := [quote_mark] ++ s ++ [quote_mark].

(** How a remark is printed; [percent] is what "%0.2f" gives. *)
Inductive printed (percent : nat -> nat -> str) : remark -> stream * str -> Prop :=
| pr_checking name : printed percent (Checking name) (Stdout, ended (bs "checking: " ++ name))
| pr_unopened m : printed percent (Unopened m) (Stderr, ended (bs "Unable to open translation table: " ++ m))
| pr_skipped l : printed percent (Skipped l) (Stdout, ended (bs "skipping language subsection for " ++ l))
| pr_order c l cs ls :
    in_hex true c cs -> in_hex true l ls ->
    printed percent (Out_of_order c l) (Stdout, ended (bs "warning - code " ++ cs ++ bs " appears after " ++ ls))
| pr_repeated c cs :
    in_hex true c cs -> printed percent (Repeated c) (Stdout, ended (bs "warning - code " ++ cs ++ bs " appears twice in a row"))
| pr_lengths a b sa sb :
    shortest (N.of_nat a) sa -> shortest (N.of_nat b) sb ->
    printed percent (Lengths_differ a b)
      (Stdout, ended (bs "warning - table max length (" ++ sa ++ bs ") doesn't match our calculation (" ++ sb ++ bs ")"))
| pr_added c t cs :
    in_hex false c cs ->
    printed percent (Not_added c t) (Stderr, ended (bs "Failed to add row " ++ cs ++ bs " " ++ quoted t ++ bs " to translation table"))
| pr_found c t cs :
    in_hex false c cs ->
    printed percent (Not_found c t)
      (Stderr, ended (bs "Failed to retrieve row " ++ cs ++ bs " " ++ quoted t ++ bs " in resized translation table"))
| pr_row i k d is ks :
    shortest (N.of_nat i) is -> in_hex false k ks ->
    printed percent (Row_shown i (Some (k, d))) (Stdout, ended (bs "index: " ++ is ++ bs ", key: " ++ ks ++ bs ", data: " ++ d))
| pr_empty_row i is :
    shortest (N.of_nat i) is -> printed percent (Row_shown i None) (Stdout, ended (bs "index: " ++ is ++ bs ", empty"))
| pr_figure label n s :
    shortest (N.of_nat n) s -> printed percent (Figure label n) (Stdout, ended (bs label ++ bs ": " ++ s))
| pr_percent u a : printed percent (Percent u a) (Stdout, ended (bs "used percent: " ++ percent u a))
| pr_default d : printed percent (Default_is (Some d)) (Stdout, ended (bs "default translation: " ++ d))
| pr_no_default : printed percent (Default_is None) (Stdout, ended (bs "default translation: (null)"))
| pr_greatest k s : in_hex false k s -> printed percent (Greatest_code k) (Stdout, ended (bs "maximum key: " ++ s)).

(** ** The first time through the file *)

Definition begins_block (s : str) : Prop := exists w r, headed s w r /\ begins_with (bs "start") w.

Definition order (last code : N) : list remark :=
  if (code <? last)%N then [Out_of_order code last] else if (code =? last)%N then [Repeated code] else [].

(** [review inside last room ps rs result]: [last] is the last code since the block began
    (0: none), [room] the number of further entries.  The result is what the pieces say,
    or None when there is an entry that cannot be stored.  Language blocks never count. *)
Inductive review : bool -> N -> nat -> list (list byte) -> list remark -> option (list directive) -> Prop :=
| review_end i last room : review i last room [] [] (Some [])
| review_language last room p s w c r lang ps rs res :
    visible p s -> headed s w (c :: r) -> begins_with (bs "start") w -> text_at w (c :: r) lang ->
    review false 0 room ps rs res ->
    review false last room (p :: ps) (Skipped lang :: rs) (option_map (cons Nothing) res)
| review_start last room p s w ps rs res :
    visible p s -> headed s w [] -> begins_with (bs "start") w -> review true 0 room ps rs res ->
    review false last room (p :: ps) rs (option_map (cons Nothing) res)
| review_entry last room p s code text ps rs res :
    visible p s -> means [] true s true (Entry code text) -> code <> 0%N -> review true code room ps rs res ->
    review true last (S room) (p :: ps) (order last code ++ rs) (option_map (cons (Entry code text)) res)
| review_refused last room p s code text ps :
    visible p s -> means [] true s true (Entry code text) -> code = 0%N \/ room = 0 ->
    review true last room (p :: ps) [Not_added code text] None
| review_other i last room p s j d ps rs res :
    visible p s -> means [] i s j d -> (forall code text, d <> Entry code text) ->
    (i = false -> ~ begins_block s) -> review j last room ps rs res ->
    review i last room (p :: ps) rs (option_map (cons d) res).

(** The length of the longest. *)
Fixpoint longest (texts : list str) : nat :=
  match texts with
  | [] => 0
  | x :: r => Nat.max (length x) (longest r)
  end.

Definition defaults (ds : list directive) : list str :=
  flat_map (fun d => match d with Default (Some x) => [x] | _ => [] end) ds.

Definition lengths (ds : list directive) : list remark :=
  let table := longest (map snd (entries ds)) in
  let calculated := Nat.max 1 (Nat.max table (longest (defaults ds))) in
  if table =? calculated then [] else [Lengths_differ table calculated].

(** The result: what the file says and the size of the table, or nothing. *)
Inductive first_pass : table_file -> list remark -> option (list directive * nat) -> Prop :=
| fp_absent : first_pass Absent [] None
| fp_locked m : first_pass (Locked m) [Unopened m] None
| fp_refused contents ps rs :
    pieces contents ps -> review false 0 (room contents) ps rs None -> first_pass (Readable contents) rs None
| fp_fine contents ps rs ds :
    pieces contents ps -> review false 0 (room contents) ps rs (Some ds) ->
    first_pass (Readable contents) (rs ++ lengths ds) (Some (ds, room contents)).

(** ** The second time *)

(** Every entry is looked up; the result is their codes, or None after the first one that
    is not found. *)
Inductive recheck (lookup : N -> option str) : bool -> list (list byte) -> list remark -> option (list N) -> Prop :=
| recheck_end i : recheck lookup i [] [] (Some [])
| recheck_language p s w c r lang ps rs res :
    visible p s -> headed s w (c :: r) -> begins_with (bs "start") w -> text_at w (c :: r) lang ->
    recheck lookup false ps rs res -> recheck lookup false (p :: ps) (Skipped lang :: rs) res
| recheck_found p s code text ps rs res :
    visible p s -> means [] true s true (Entry code text) -> lookup code = Some text ->
    recheck lookup true ps rs res -> recheck lookup true (p :: ps) rs (option_map (cons code) res)
| recheck_lost p s code text ps :
    visible p s -> means [] true s true (Entry code text) -> lookup code <> Some text ->
    recheck lookup true (p :: ps) [Not_found code text] None
| recheck_other i p s j d ps rs res :
    visible p s -> means [] i s j d -> (forall code text, d <> Entry code text) ->
    ~ (i = false /\ exists w c r, headed s w (c :: r) /\ begins_with (bs "start") w) ->
    recheck lookup j ps rs res -> recheck lookup i (p :: ps) rs res.

(** ** The report *)

Record summary := mkSummary {
  su_rows : list (option (N * str));
  su_used : nat;
  su_hits : nat;
  su_seeks : nat;
  su_overwrites : nat;
  su_longest : nat;
  su_default : option str;
  su_greatest : N
}.

Definition figures (s : summary) : list remark :=
  [Figure "used" (su_used s); Figure "available" (length (su_rows s)); Percent (su_used s) (length (su_rows s));
   Figure "hits" (su_hits s); Figure "misses" 0; Figure "seeks" (su_seeks s); Figure "overwrites" (su_overwrites s);
   Figure "longest entry" (su_longest s); Default_is (su_default s); Greatest_code (su_greatest s)].

(** The rows from number [i] on, the empty ones with -v only. *)
Fixpoint listing (verbose : bool) (i : nat) (rows : list (option (N * str))) : list remark :=
  match rows with
  | [] => []
  | None :: r => (if verbose then [Row_shown i None] else []) ++ listing verbose (S i) r
  | Some kd :: r => Row_shown i (Some kd) :: listing verbose (S i) r
  end.

(** Every code that has a text is in exactly one row. *)
Definition holds (rows : list (option (N * str))) (lookup : N -> option str) : Prop :=
  (forall k d, In (Some (k, d)) rows <-> lookup k = Some d) /\
  (forall a k d b d', rows = a ++ Some (k, d) :: b -> ~ In (Some (k, d')) (a ++ b)).

(** Where an entry goes: where its code is already, or else to row number (code mod number
    of rows) if the table is hashed and that row is free, or else to the first free row. *)
Inductive goes (hash : bool) (k : N) (d : str) : list (option (N * str)) -> list (option (N * str)) -> Prop :=
| goes_again a d' b : goes hash k d (a ++ Some (k, d') :: b) (a ++ Some (k, d) :: b)
| goes_home a b :
    hash = true -> length a = N.to_nat (k mod N.of_nat (length (a ++ None :: b))) ->
    (forall d', ~ In (Some (k, d')) (a ++ b)) -> goes hash k d (a ++ None :: b) (a ++ Some (k, d) :: b)
| goes_first a b :
    ~ In None a -> (forall d', ~ In (Some (k, d')) (a ++ b)) ->
    (hash = true -> nth_error (a ++ None :: b) (N.to_nat (k mod N.of_nat (length (a ++ None :: b)))) <> Some None) ->
    goes hash k d (a ++ None :: b) (a ++ Some (k, d) :: b).

Inductive fill (hash : bool) : list (option (N * str)) -> list (N * str) -> list (option (N * str)) -> Prop :=
| fill_end rows : fill hash rows [] rows
| fill_more rows k d rows' h rows'' : goes hash k d rows rows' -> fill hash rows' h rows'' -> fill hash rows ((k, d) :: h) rows''.

Definition laid_out (hash : bool) (size : nat) (h : list (N * str)) (rows : list (option (N * str))) : Prop :=
  fill hash (repeat None size) h rows.

(** The entries of rows, in the order of the rows. *)
Definition in_rows (rows : list (option (N * str))) : list (N * str) :=
  flat_map (fun r => match r with Some e => [e] | None => [] end) rows.

(** How many of the codes looked up are not in row number (code mod number of rows); all
    count as such without hashing. *)
Definition at_home (rows : list (option (N * str))) (k : N) : Prop :=
  exists d, nth_error rows (N.to_nat (k mod N.of_nat (length rows))) = Some (Some (k, d)).

Inductive sought (hash : bool) (rows : list (option (N * str))) : list N -> nat -> Prop :=
| sought_end : sought hash rows [] 0
| sought_home k ks n : hash = true -> at_home rows k -> sought hash rows ks n -> sought hash rows (k :: ks) n
| sought_away k ks n : (hash = true -> ~ at_home rows k) -> sought hash rows ks n -> sought hash rows (k :: ks) (S n).

(** The codes, each once. *)
Definition codes_of (ds : list directive) (ks : list N) : Prop :=
  NoDup ks /\ forall k, In k ks <-> In k (map fst (entries ds)).

Definition greatest (ds : list directive) (k : N) : Prop :=
  Forall (fun e => fst e <= k)%N (entries ds) /\ (k = 0%N \/ In k (map fst (entries ds))).

(** Of the table as it is loaded. *)
Definition plain_summary (hash : bool) (ds : list directive) (size : nat) (s : summary) : Prop :=
  length (su_rows s) = size /\ holds (su_rows s) (fun k => last_for k (entries ds)) /\
  laid_out hash size (entries ds) (su_rows s) /\
  su_used s = length (entries ds) /\ su_hits s = length (entries ds) /\
  sought hash (su_rows s) (map fst (entries ds)) (su_seeks s) /\
  (forall ks, codes_of ds ks -> length ks + su_overwrites s = length (entries ds)) /\
  su_longest s = longest (map snd (entries ds)) /\ su_default s = default_of None ds /\ greatest ds (su_greatest s).

(** Of the table rebuilt as a built-in one would be, row by row; the codes [looked] were
    looked up. *)
Definition builtin_summary (hash : bool) (ds : list directive) (size : nat) (looked : list N) (s : summary) : Prop :=
  length (su_rows s) = (length (entries ds) / 256 + 1) * 256 /\
  holds (su_rows s) (fun k => last_for k (entries ds)) /\
  (exists rows, laid_out hash size (entries ds) rows /\ laid_out true ((length (entries ds) / 256 + 1) * 256) (in_rows rows) (su_rows s)) /\
  su_hits s = length looked /\ sought true (su_rows s) looked (su_seeks s) /\
  (forall ks, codes_of ds ks -> su_used s = length ks /\ length ks + su_overwrites s = length (entries ds)) /\
  Forall (fun r => match r with Some (_, d) => length d <= su_longest s | None => True end) (su_rows s) /\
  (su_longest s = 0 \/ exists k d, In (Some (k, d)) (su_rows s) /\ length d = su_longest s) /\
  su_default s = default_of None ds /\ greatest ds (su_greatest s).

Definition report (o : check_options) (s : summary) : list remark :=
  (if k_dump o then listing (k_verbose o) 0 (su_rows s) else []) ++ figures s.

(** [checked o name first second rs result]: what is said of a file that is [first] when
    it is opened first, and [second] when it is opened again (with -b). *)
Inductive checked (o : check_options) (name : str) (first second : table_file) : list remark -> res N -> Prop :=
| ck_rejected rs :
    k_builtin o = false -> first_pass first rs None -> checked o name first second (Checking name :: rs) (Ok 0%N)
| ck_fine rs ds size s :
    k_builtin o = false -> first_pass first rs (Some (ds, size)) -> plain_summary (k_hash o) ds size s ->
    checked o name first second (Checking name :: rs ++ report o s) (Ok 0%N)
| ck_null rs :
    k_builtin o = true -> first_pass first rs None -> second <> Absent ->
    checked o name first second (Checking name :: rs) (UB NullDeref)
| ck_vanished rs res :
    k_builtin o = true -> first_pass first rs res -> second = Absent ->
    checked o name first second (Checking name :: rs) (Ok 0%N)
| ck_locked rs res m :
    k_builtin o = true -> first_pass first rs (Some res) -> second = Locked m ->
    checked o name first second (Checking name :: rs ++ [Unopened m]) (Ok 0%N)
| ck_lost rs ds size contents ps rs' :
    k_builtin o = true -> first_pass first rs (Some (ds, size)) -> second = Readable contents -> pieces contents ps ->
    recheck (fun k => last_for k (entries ds)) false ps rs' None ->
    checked o name first second (Checking name :: rs ++ rs') (Ok 0%N)
| ck_rebuilt rs ds size contents ps rs' looked s :
    k_builtin o = true -> first_pass first rs (Some (ds, size)) -> second = Readable contents -> pieces contents ps ->
    recheck (fun k => last_for k (entries ds)) false ps rs' (Some looked) -> builtin_summary (k_hash o) ds size looked s ->
    checked o name first second (Checking name :: rs ++ rs' ++ report o s) (Ok 0%N).

(** ** The command line *)

(** [arguments posix args letters files]: the option letters and the rest. *)
Inductive arguments (posix : bool) : list str -> list byte -> list str -> Prop :=
| ar_end : arguments posix [] [] []
| ar_dashes rest : arguments posix (bs "--" :: rest) [] rest
| ar_letters c s rest ls fs :
    c :: s <> bs "-" -> arguments posix rest ls fs ->
    arguments posix (("-"%byte :: c :: s) :: rest) ((c :: s) ++ ls) fs
| ar_file a rest ls fs :
    posix = false -> (forall c s, a <> "-"%byte :: c :: s) -> arguments posix rest ls fs ->
    arguments posix (a :: rest) ls (a :: fs)
| ar_stop a rest :
    posix = true -> (forall c s, a <> "-"%byte :: c :: s) -> arguments posix (a :: rest) [] (a :: rest).

(** Letters without effect on where the program ends. *)
Definition harmless (c : byte) : Prop := In c (bs "bdlv").

Definition wished (ls : list byte) (o : check_options) : Prop :=
  (k_builtin o = true <-> In "b"%byte ls) /\ (k_dump o = true <-> In "d"%byte ls) /\
  (k_hash o = false <-> In "l"%byte ls) /\ (k_verbose o = true <-> In "v"%byte ls).

(** The whole program: remarks, or a single line of another kind. *)
Inductive check_session (percent : nat -> nat -> str) (posix : bool) (args : list str) (first second : str -> table_file)
  : list (stream * str) -> res N -> Prop :=
| cs_help ls ls' fs :
    arguments posix args (ls ++ "h"%byte :: ls') fs -> Forall harmless ls ->
    check_session percent posix args first second [(Stdout, ended (bs "check-table [-bdlhv] filename.tbl"))] (Ok 0%N)
| cs_unknown ls c ls' fs :
    arguments posix args (ls ++ c :: ls') fs -> Forall harmless ls -> ~ harmless c -> c <> "h"%byte ->
    check_session percent posix args first second [(Stderr, ended (bs "unknown option: ?"))] (Ok 255%N)
| cs_no_file ls :
    arguments posix args ls [] -> Forall harmless ls ->
    check_session percent posix args first second [(Stdout, ended (bs "please specify a file to operate on"))] (Ok 255%N)
| cs_file ls f fs o rs out res :
    arguments posix args ls (f :: fs) -> Forall harmless ls -> wished ls o ->
    checked o f (first f) (second f) rs res -> Forall2 (printed percent) rs out ->
    check_session percent posix args first second out res.
