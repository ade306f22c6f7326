(** * Model of src/check_table.c and src/table_dump.c *)

From Verif Require Import Base Stdio Table Prog ParseTable GenBuiltin Escape.

Local Open Scope nat_scope.

(** ** The counters of a table *)

(** src/detox_struct.h:49-52; the other fields are in [table]. *)
Record counters := mkCounters { c_hits : nat; c_misses : nat; c_seeks : nat }.
Definition no_counters : counters := mkCounters 0 0 0.

(** src/table.c:182-221 [table_get] with its counters *)
Definition counted_get (t : table) (key : N) (n : counters) : option str * counters :=
  if (key =? 0)%N then (None, n)
  else
    let n := if t_hash t && (r_key (row_at (t_rows t) (table_hash (t_length t) key)) =? key)%N then n
             else mkCounters (c_hits n) (c_misses n) (S (c_seeks n)) in
    match get_offset t key with
    | None => (None, mkCounters (c_hits n) (S (c_misses n)) (c_seeks n))
    | Some off => (r_data (row_at (t_rows t) off), mkCounters (S (c_hits n)) (c_misses n) (c_seeks n))
    end.

(** ** src/check_table.c *)

(** "0x%04x" and "0x%04X" *)
Definition code_lower (n : N) : str := bs "0x" ++ hex4 n.
Definition code_upper (n : N) : str := bs "0x" ++ hex_upper 4 n.

Definition skipping (lang : str) : str := line (bs "skipping language subsection for " ++ lang).

(** The messages of lines 199, 209 and 360 *)
Definition row_failure (before : str) (code : N) (text after : str) : str :=
  line (before ++ code_lower code ++ bs " " ++ [c_quote] ++ text ++ [c_quote] ++ after).

Record ck_state := mkCk {
  ck_inside : bool;
  ck_offset : option nat;
  ck_table : table;
  ck_counters : counters;
  ck_last : N;
  ck_longest : nat       (* check_max_data_length *)
}.

(** lines 117-129, 138-149, 185-195: the text at [work + offset]; inr at the end of the line *)
Definition at_start (work : str) (offset : option nat) (parsed : str) : talk (str + unit) :=
  let% r := quietly (at_offset work offset) in
  match r with
  | [] => done (inr tt)
  | _ => let% parsed := quietly (scan_text r parsed) in done (inl parsed)
  end.

(** src/check_table.c:97-226: one line; None means that the table is given up.  [last] is
    not negative: a code that is stored is not. *)
Definition check_line (work : str) (st : ck_state) : talk (option ck_state) :=
  let t := ck_table st in
  if match work with c :: _ => beq c "#" | [] => false end then done (Some st)
  else if negb (ck_inside st) then
    (* lines 107-161 *)
    let% (parsed, offset) :=
      quietly (match scan_word work with
               | Some (w, n) => do p <- store_parsed w; Ok (p, Some n)
               | None => Ok ([], ck_offset st)
               end) in
    if strncaseeq 5 parsed (bs "start") then
      let% lang := at_start work offset parsed in
      match lang with
      | inr _ => done (Some (mkCk true offset t (ck_counters st) 0 (ck_longest st)))
      | inl lang =>
        let% _ := say Stdout (skipping lang) in
        done (Some (mkCk false offset t (ck_counters st) 0 (ck_longest st)))
      end
    else if strncaseeq 7 parsed (bs "default") then
      let% text := at_start work offset parsed in
      match text with
      | inr _ => done (Some (mkCk false offset (set_default t None) (ck_counters st) (ck_last st) (ck_longest st)))
      | inl text =>
        done (Some (mkCk false offset (set_default t (Some text)) (ck_counters st) (ck_last st)
                      (if ck_longest st <? length text then length text else ck_longest st)))
      end
    else done (Some (mkCk false offset t (ck_counters st) (ck_last st) (ck_longest st)))
  else
    (* lines 163-226 *)
    let (code, offset) := match scan_int work with
                          | inl (code, n) => (code, Some n)
                          | inr _ => ((-1)%Z, ck_offset st)
                          end in
    let stay offset := mkCk true offset t (ck_counters st) (ck_last st) (ck_longest st) in
    if (code <? 0)%Z then
      match scan_word work with
      | Some (w, n) =>
        let% parsed := quietly (store_parsed w) in
        done (Some (mkCk (negb (strncaseeq 5 parsed (bs "end"))) (Some n) t (ck_counters st) (ck_last st) (ck_longest st)))
      | None => done (Some (stay offset))
      end
    else
      let% text := at_start work offset [] in
      match text with
      | inr _ => done (Some (stay offset))
      | inl text =>
        let code := Z.to_N code in
        match table_put t code text with
        | (_, None) =>
          let% _ := say Stderr (row_failure (bs "Failed to add row ") code text (bs " to translation table")) in done None
        | (t', Some _) =>
          let (check, n) := counted_get t' code (ck_counters st) in
          if match check with Some d => str_eqb text d | None => false end then
            let% _ := (if (code <? ck_last st)%N then
                         say Stdout (line (bs "warning - code " ++ code_upper code ++ bs " appears after " ++ code_upper (ck_last st)))
                       else if (code =? ck_last st)%N then
                         say Stdout (line (bs "warning - code " ++ code_upper code ++ bs " appears twice in a row"))
                       else done tt) in
            done (Some (mkCk true offset t' n code (if ck_longest st <? length text then length text else ck_longest st)))
          else
            let% _ := say Stderr (row_failure (bs "Failed to retrieve row ") code text (bs " in translation table")) in done None
        end
      end.

(** src/check_table.c:96-227: the loop.  None: given up. *)
Fixpoint check_loop (fuel : nat) (input : list byte) (st : ck_state) : talk (option ck_state) :=
  match fuel with
  | O => done (Some st)
  | S fuel' =>
    match next_line input with
    | None => done (Some st)
    | Some (bytes, rest) =>
      let% next := check_line (cstr bytes) st in
      match next with
      | None => done None
      | Some st' => check_loop fuel' rest st'
      end
    end
  end.

(** What stat and fopen find; the error of fopen with its text. *)
Inductive table_file := Absent | Locked (message : str) | Readable (contents : list byte).

Definition unable (message : str) : str := line (bs "Unable to open translation table: " ++ message).

(** src/check_table.c:34-238 [check_table]; None is NULL.  Simplified as parse_table is:
    the size given by stat is that of the contents. *)
Definition check_table (file : table_file) (use_hash : bool) : talk (option (table * counters)) :=
  match file with
  | Absent => done None
  | Locked message => let% _ := say Stderr (unable message) in done None
  | Readable contents =>
    let t := table_init (Z.of_nat (table_capacity (length contents))) in
    let t := mkTable (t_rows t) (t_used t) (t_maxdata t) (t_default t) (t_overwrites t) use_hash (t_builtin t) (t_maxkey t) in
    let% st := check_loop (length contents) contents (mkCk false None t no_counters 0 1) in
    match st with
    | None => done None
    | Some st =>
      let t := ck_table st in
      let% _ := (if t_maxdata t =? ck_longest st then done tt
                 else say Stdout (line (bs "warning - table max length (" ++ dec (N.of_nat (t_maxdata t)) ++
                        bs ") doesn't match our calculation (" ++ dec (N.of_nat (ck_longest st)) ++ bs ")"))) in
      done (Some (t, ck_counters st))
    end
  end.

(** The variables of check_table_again. *)
Record again_state := mkAgain { ag_inside : bool; ag_offset : option nat; ag_counters : counters }.

(** src/check_table.c:280-366: one line *)
Definition again_line (t : table) (work : str) (st : again_state) : talk (option again_state) :=
  if match work with c :: _ => beq c "#" | [] => false end then done (Some st)
  else if negb (ag_inside st) then
    let% (parsed, offset) :=
      quietly (match scan_word work with
               | Some (w, n) => do p <- store_parsed w; Ok (p, Some n)
               | None => Ok ([], ag_offset st)
               end) in
    if strncaseeq 5 parsed (bs "start") then
      let% lang := at_start work offset parsed in
      match lang with
      | inr _ => done (Some (mkAgain true offset (ag_counters st)))
      | inl lang =>
        let% _ := say Stdout (skipping lang) in
        done (Some (mkAgain false offset (ag_counters st)))
      end
    else done (Some (mkAgain false offset (ag_counters st)))
  else
    let (code, offset) := match scan_int work with
                          | inl (code, n) => (code, Some n)
                          | inr _ => ((-1)%Z, ag_offset st)
                          end in
    if (code <? 0)%Z then
      match scan_word work with
      | Some (w, n) =>
        let% parsed := quietly (store_parsed w) in
        done (Some (mkAgain (negb (strncaseeq 5 parsed (bs "end"))) (Some n) (ag_counters st)))
      | None => done (Some (mkAgain true offset (ag_counters st)))
      end
    else
      let% text := at_start work offset [] in
      match text with
      | inr _ => done (Some (mkAgain true offset (ag_counters st)))
      | inl text =>
        let code := Z.to_N code in
        let (check, n) := counted_get t code (ag_counters st) in
        if match check with Some d => str_eqb text d | None => false end then
          done (Some (mkAgain true offset n))
        else
          let% _ := say Stderr (row_failure (bs "Failed to retrieve row ") code text (bs " in resized translation table")) in
          done None
      end.

Fixpoint again_loop (fuel : nat) (t : table) (input : list byte) (st : again_state) : talk (option again_state) :=
  match fuel with
  | O => done (Some st)
  | S fuel' =>
    match next_line input with
    | None => done (Some st)
    | Some (bytes, rest) =>
      let% next := again_line t (cstr bytes) st in
      match next with
      | None => done None
      | Some st' => again_loop fuel' t rest st'
      end
    end
  end.

(** src/check_table.c:240-374 [check_table_again]; the counters of a new table are 0, and
    copying into it does not look anything up.  [source] is used without looking whether
    it is NULL. *)
Definition check_table_again (file : table_file) (source : option (table * counters)) : talk (option (table * counters)) :=
  match file with
  | Absent => done None
  | _ =>
    match source with
    | None => quietly (UB NullDeref)
    | Some (source, _) =>
      let t := table_resize source (Z.of_N (loader_size (N.of_nat (t_used source)))) true in
      match file with
      | Readable contents =>
        let% st := again_loop (length contents) t contents (mkAgain false None no_counters) in
        done (option_map (fun st => (t, ag_counters st)) st)
      | Locked message => let% _ := say Stderr (unable message) in done None
      | Absent => done None
      end
    end
  end.

(** ** src/table_dump.c *)

(** src/table_dump.c:18-35 [table_dump], from row [i] on *)
Fixpoint table_dump (verbose : bool) (i : nat) (rows : list row) : talk unit :=
  match rows with
  | [] => done tt
  | r :: rest =>
    let% _ :=
      (if (r_key r =? 0)%N then
         if verbose then say Stdout (line (bs "index: " ++ dec (N.of_nat i) ++ bs ", empty")) else done tt
       else
         match r_data r with
         | None => quietly (UB NullDeref)
         | Some d => say Stdout (line (bs "index: " ++ dec (N.of_nat i) ++ bs ", key: " ++ code_lower (r_key r) ++ bs ", data: " ++ d))
         end) in
    table_dump verbose (S i) rest
  end.

(** src/table_dump.c:37-51 [table_stats].  [percent used length] is what printf makes of
    used * 100.0 / length with "%0.2f".  glibc prints "(null)" for a null pointer. *)
Definition table_stats (percent : nat -> nat -> str) (t : table) (n : counters) : talk unit :=
  let number label value := say Stdout (line (label ++ dec (N.of_nat value))) in
  let% _ := number (bs "used: ") (t_used t) in
  let% _ := number (bs "available: ") (t_length t) in
  let% _ := say Stdout (line (bs "used percent: " ++ percent (t_used t) (t_length t))) in
  let% _ := number (bs "hits: ") (c_hits n) in
  let% _ := number (bs "misses: ") (c_misses n) in
  let% _ := number (bs "seeks: ") (c_seeks n) in
  let% _ := number (bs "overwrites: ") (t_overwrites t) in
  let% _ := number (bs "longest entry: ") (t_maxdata t) in
  let% _ := say Stdout (line (bs "default translation: " ++ match t_default t with Some d => d | None => bs "(null)" end)) in
  say Stdout (line (bs "maximum key: " ++ code_lower (t_maxkey t))).

(** ** src/check_table.c: main *)

(** The successive results of getopt(argc, argv, "bdlhv") and the arguments from optind
    on, as in Options.v; None is '?'.  There are no long options for getopt: "--x" is an
    unknown option '-' and an option 'x'. *)
Fixpoint getopt (posixly_correct : bool) (args skipped : list str) : list (option byte) * list str :=
  match args with
  | [] => ([], skipped)
  | a :: rest =>
    match a with
    | c :: (d :: r) =>
      if negb (beq c "-") then
        if posixly_correct then ([], args) else getopt posixly_correct rest (skipped ++ [a])
      else if beq d "-" && match r with [] => true | _ => false end then ([], skipped ++ rest)
      else
        let (l, files) := getopt posixly_correct rest skipped in
        (map (fun x => if existsb (beq x) (bs "bdlhv") then Some x else None) (d :: r) ++ l, files)
    | _ => if posixly_correct then ([], args) else getopt posixly_correct rest (skipped ++ [a])
    end
  end.

Record check_options := mkCheck { k_builtin : bool; k_dump : bool; k_hash : bool; k_verbose : bool }.

(** src/check_table.c:386-412: inr is a return from main *)
Fixpoint check_getopt (codes : list (option byte)) (o : check_options) : talk (check_options + N) :=
  match codes with
  | [] => done (inl o)
  | None :: _ => let% _ := say Stderr (line (bs "unknown option: ?")) in done (inr 255%N)
  | Some c :: rest =>
    if beq c "b" then check_getopt rest (mkCheck true (k_dump o) (k_hash o) (k_verbose o))
    else if beq c "d" then check_getopt rest (mkCheck (k_builtin o) true (k_hash o) (k_verbose o))
    else if beq c "h" then let% _ := say Stdout (line (bs "check-table [-bdlhv] filename.tbl")) in done (inr 0%N)
    else if beq c "l" then check_getopt rest (mkCheck (k_builtin o) (k_dump o) false (k_verbose o))
    else check_getopt rest (mkCheck (k_builtin o) (k_dump o) (k_hash o) true)
  end.

(** src/check_table.c:414-429; [first] and [second] are what the file is when it is
    looked at for the first and the second time. *)
Definition check_file (percent : nat -> nat -> str) (o : check_options) (name : str) (first second : table_file) : talk N :=
  let% _ := say Stdout (line (bs "checking: " ++ name)) in
  let% t := check_table first (k_hash o) in
  let% t := (if k_builtin o then check_table_again second t else done t) in
  let% _ :=
    (match t with
     | Some (t, n) =>
       let% _ := (if k_dump o then table_dump (k_verbose o) 0 (t_rows t) else done tt) in
       table_stats percent t n
     | None => done tt
     end) in
  done 0%N.

(** src/check_table.c:376-436 [main]; [args] without the name of the program.  What getopt
    prints is not modelled. *)
Definition check_main (percent : nat -> nat -> str) (posixly_correct : bool) (args : list str) (first second : str -> table_file) : talk N :=
  let (codes, files) := getopt posixly_correct args [] in
  let% o := check_getopt codes (mkCheck false false true false) in
  match o with
  | inr status => done status
  | inl o =>
    match files with
    | [] => let% _ := say Stdout (line (bs "please specify a file to operate on")) in done 255%N
    | f :: _ => check_file percent o f (first f) (second f)
    end
  end.
