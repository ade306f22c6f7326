(** * Model of src/check_table.c and src/table_dump.c in memory

    Compare CheckTable.v, where the tables and the buffers are lists.  The arguments, which
    are only read, and the name of the file are lists here, too. *)

From Verif Require Import Base Stdio Table Prog ParseTable GenBuiltin Escape CheckTable Warnings Mem Words CTable CParseTable.

Local Open Scope nat_scope.

(** Something printed. *)
Definition c_print (out : stream) (text : str) : wmem unit := saying (say out text).

(** strcmp(p, q) == 0 *)
Definition c_same (p q : ptr) : mem bool :=
  let* a := c_read p in
  let* b := c_read q in
  mret (str_eqb a b).

Section check.

Context {al : allocator}.

(** ** The first time *)

(** The variables of check_table that the lines change. *)
Record ck_vars := mkVars { v_inside : bool; v_offset : option nat; v_last : Z; v_longest : Z }.

(** src/check_table.c:151-153 and 215-217: [check_max_data_length] after the string at [parsed] *)
Definition c_longest (parsed : ptr) (longest : Z) : wmem Z :=
  let$ n := bytes (c_strlen parsed) in
  if (size_of longest <? n)%N then
    let$ n := bytes (c_strlen parsed) in wret (int_of n)
  else wret longest.

(** src/check_table.c:97-226: one line; None: the table is given up, and the message printed *)
Definition c_check_line (table work parsed : ptr) (v : ck_vars) : wmem (option ck_vars) :=
  let$ c := bytes (load work) in
  if beq c "#" then wret (Some v)
  else
    let$ _ := bytes (store parsed NUL) in
    if negb (v_inside v) then
      let$ (_, offset) := bytes (c_scan_word work parsed (v_offset v)) in
      let$ start := bytes (c_starts 5 parsed (bs "start")) in
      if start then
        let$ p := bytes (c_at_offset work offset) in
        let$ c := bytes (load p) in
        if beq c NUL then wret (Some (mkVars true offset 0 (v_longest v)))
        else
          let$ _ := bytes (c_scan_text p parsed) in
          let$ lang := bytes (c_read parsed) in
          let$ _ := c_print Stdout (skipping lang) in
          wret (Some (mkVars false offset 0 (v_longest v)))
      else
        let$ default := bytes (c_starts 7 parsed (bs "default")) in
        if default then
          let$ p := bytes (c_at_offset work offset) in
          let$ c := bytes (load p) in
          if beq c NUL then
            let$ _ := assign table T_default_translation Zero in
            wret (Some (mkVars false offset (v_last v) (v_longest v)))
          else
            let$ _ := bytes (c_scan_text p parsed) in
            let$ copy := bytes (c_strdup parsed) in
            let$ _ := assign table T_default_translation (Ptr copy) in
            let$ longest := c_longest parsed (v_longest v) in
            wret (Some (mkVars false offset (v_last v) longest))
        else wret (Some (mkVars false offset (v_last v) (v_longest v)))
    else
      let$ s := bytes (c_read work) in
      let (code, offset) := match scan_int s with
                            | inl (code, n) => (code, Some n)
                            | inr _ => ((-1)%Z, v_offset v)
                            end in
      if (code <? 0)%Z then
        let$ (found, offset) := bytes (c_scan_word work parsed offset) in
        let$ last := (if found : bool then bytes (c_starts 5 parsed (bs "end")) else wret false) in
        wret (Some (mkVars (negb last) offset (v_last v) (v_longest v)))
      else
        let$ p := bytes (c_at_offset work offset) in
        let$ c := bytes (load p) in
        if beq c NUL then wret (Some (mkVars true offset (v_last v) (v_longest v)))
        else
          let$ _ := bytes (c_scan_text p parsed) in
          let$ ret := c_table_put (Some table) (Z.to_N code) parsed in
          if (ret =? -1)%Z then
            let$ text := bytes (c_read parsed) in
            let$ _ := c_print Stderr (row_failure (bs "Failed to add row ") (Z.to_N code) text (bs " to translation table")) in
            wret None
          else
            let$ check := c_table_get (Some table) (Z.to_N code) in
            let$ same := (match check with Some check => bytes (c_same parsed check) | None => wret false end) in
            if negb same then
              let$ text := bytes (c_read parsed) in
              let$ _ := c_print Stderr (row_failure (bs "Failed to retrieve row ") (Z.to_N code) text (bs " in translation table")) in
              wret None
            else
              let$ longest := c_longest parsed (v_longest v) in
              let$ _ :=
                (if (code <? v_last v)%Z then
                   c_print Stdout (line (bs "warning - code " ++ code_upper (Z.to_N code) ++ bs " appears after " ++ code_upper (Z.to_N (v_last v))))
                 else if (code =? v_last v)%Z then
                   c_print Stdout (line (bs "warning - code " ++ code_upper (Z.to_N code) ++ bs " appears twice in a row"))
                 else wret tt) in
              wret (Some (mkVars true offset code longest)).

(** src/check_table.c:96-227: the loop; None: given up.  The table and the buffers are freed
    then. *)
Fixpoint c_check_loop (fuel : nat) (input : list byte) (table work parsed : ptr) (v : ck_vars) : wmem (option ck_vars) :=
  match fuel with
  | O => wret (Some v)
  | S fuel' =>
    match input with
    | [] => wret (Some v)
    | _ =>
      let$ rest := bytes (c_fgets work input) in
      let$ next := c_check_line table work parsed v in
      match next with
      | Some v => c_check_loop fuel' rest table work parsed v
      | None =>
        let$ _ := c_table_free (Some table) in
        let$ _ := bytes (free work) in
        let$ _ := bytes (free parsed) in
        wret None
      end
    end
  end.

(** src/check_table.c:34-238 [check_table]; [denied_size] is the size of a file that cannot be
    opened. *)
Definition c_check_table (file : table_file) (denied_size : nat) (use_hash : Z) : wmem (option ptr) :=
  match file with
  | Absent => wret None
  | Locked message =>
    let$ table := c_table_init (Z.of_nat (table_capacity denied_size)) in
    let$ _ := assign table T_use_hash (Int use_hash) in
    let$ _ := c_print Stderr (unable message) in
    wret None
  | Readable contents =>
    let$ table := c_table_init (Z.of_nat (table_capacity (length contents))) in
    let$ _ := assign table T_use_hash (Int use_hash) in
    let$ work := bytes (malloc (N.of_nat TABLE_BUFFER)) in
    let$ parsed := bytes (malloc (N.of_nat TABLE_BUFFER)) in
    let$ v := c_check_loop (length contents) contents table work parsed (mkVars false None 0 1) in
    match v with
    | None => wret None
    | Some v =>
      let$ max_data_length := int_at table T_max_data_length in
      let$ _ :=
        (if (max_data_length =? v_longest v)%Z then wret tt
         else c_print Stdout (line (bs "warning - table max length (" ++ dec (Z.to_N max_data_length) ++
                bs ") doesn't match our calculation (" ++ dec (Z.to_N (v_longest v)) ++ bs ")"))) in
      let$ _ := bytes (free work) in
      let$ _ := bytes (free parsed) in
      wret (Some table)
    end
  end.

(** ** The second time *)

(** src/check_table.c:280-366: one line *)
Definition c_again_line (table work parsed : ptr) (inside : bool) (offset : option nat) : wmem (option (bool * option nat)) :=
  let$ c := bytes (load work) in
  if beq c "#" then wret (Some (inside, offset))
  else
    let$ _ := bytes (store parsed NUL) in
    if negb inside then
      let$ (_, offset) := bytes (c_scan_word work parsed offset) in
      let$ start := bytes (c_starts 5 parsed (bs "start")) in
      if start then
        let$ p := bytes (c_at_offset work offset) in
        let$ c := bytes (load p) in
        if beq c NUL then wret (Some (true, offset))
        else
          let$ _ := bytes (c_scan_text p parsed) in
          let$ lang := bytes (c_read parsed) in
          let$ _ := c_print Stdout (skipping lang) in
          wret (Some (false, offset))
      else wret (Some (false, offset))
    else
      let$ s := bytes (c_read work) in
      let (code, offset) := match scan_int s with
                            | inl (code, n) => (code, Some n)
                            | inr _ => ((-1)%Z, offset)
                            end in
      if (code <? 0)%Z then
        let$ (found, offset) := bytes (c_scan_word work parsed offset) in
        let$ last := (if found : bool then bytes (c_starts 5 parsed (bs "end")) else wret false) in
        wret (Some (negb last, offset))
      else
        let$ p := bytes (c_at_offset work offset) in
        let$ c := bytes (load p) in
        if beq c NUL then wret (Some (true, offset))
        else
          let$ _ := bytes (c_scan_text p parsed) in
          let$ check := c_table_get (Some table) (Z.to_N code) in
          let$ same := (match check with Some check => bytes (c_same parsed check) | None => wret false end) in
          if negb same then
            let$ text := bytes (c_read parsed) in
            let$ _ := c_print Stderr (row_failure (bs "Failed to retrieve row ") (Z.to_N code) text (bs " in resized translation table")) in
            wret None
          else wret (Some (true, offset)).

(** src/check_table.c:279-373: the loop, and what comes behind it *)
Fixpoint c_again_loop (fuel : nat) (input : list byte) (table work parsed : ptr) (inside : bool) (offset : option nat) : wmem (option ptr) :=
  let finish :=
    let$ _ := bytes (free work) in
    let$ _ := bytes (free parsed) in
    wret (Some table) in
  match fuel with
  | O => finish
  | S fuel' =>
    match input with
    | [] => finish
    | _ =>
      let$ rest := bytes (c_fgets work input) in
      let$ next := c_again_line table work parsed inside offset in
      match next with
      | Some (inside, offset) => c_again_loop fuel' rest table work parsed inside offset
      | None =>
        let$ _ := c_table_free (Some table) in
        let$ _ := bytes (free work) in
        let$ _ := bytes (free parsed) in
        wret None
      end
    end
  end.

(** src/check_table.c:259: the size for table_resize, an int *)
Definition c_again_size (used : Z) : wmem Z :=
  let multiple := Z.of_N BUILTIN_TABLE_MULTIPLE in
  let$ n := int_sum (used / multiple) 1 in
  if (n * multiple <=? int_max)%Z then wret (n * multiple)%Z else wfail IntOverflow.

(** src/check_table.c:240-374 [check_table_again] *)
Definition c_check_again (file : table_file) (source : option ptr) : wmem (option ptr) :=
  let resized :=
    let$ p := deref source in
    let$ used := int_at p T_used in
    let$ size := c_again_size used in
    c_table_resize source size 1 in
  match file with
  | Absent => wret None
  | Locked message =>
    let$ _ := resized in
    let$ _ := c_print Stderr (unable message) in
    wret None
  | Readable contents =>
    let$ table := resized in
    let$ work := bytes (malloc (N.of_nat TABLE_BUFFER)) in
    let$ parsed := bytes (malloc (N.of_nat TABLE_BUFFER)) in
    c_again_loop (length contents) contents table work parsed false None
  end.

(** ** src/table_dump.c *)

(** src/table_dump.c:18-35 [table_dump] *)
Definition c_table_dump (table : ptr) (verbose : bool) : wmem unit :=
  wwhile (fun i =>
    let$ length := int_at table T_length in
    if (i <? length)%Z then
      let$ rows := c_rows table in
      let$ k := c_row_key rows i in
      let$ _ :=
        (if (k =? 0)%N then
           if verbose then c_print Stdout (line (bs "index: " ++ dec (Z.to_N i) ++ bs ", empty")) else wret tt
         else
           let$ data := c_row_data rows i in
           let$ data := deref data in
           let$ d := bytes (c_read data) in
           c_print Stdout (line (bs "index: " ++ dec (Z.to_N i) ++ bs ", key: " ++ code_lower k ++ bs ", data: " ++ d))) in
      wret (inl (i + 1)%Z)
    else wret (inr tt)) 0%Z.

(** A member of the table that printf shows with "%d"; none of them is negative. *)
Definition c_figure (table : ptr) (label : str) (member : nat) : wmem unit :=
  let$ n := int_at table member in
  c_print Stdout (line (label ++ dec (Z.to_N n))).

(** src/table_dump.c:37-51 [table_stats] *)
Definition c_table_stats (percent : nat -> nat -> str) (table : ptr) : wmem unit :=
  let$ _ := c_figure table (bs "used: ") T_used in
  let$ _ := c_figure table (bs "available: ") T_length in
  let$ used := int_at table T_used in
  let$ length := int_at table T_length in
  let$ _ := c_print Stdout (line (bs "used percent: " ++ percent (Z.to_nat used) (Z.to_nat length))) in
  let$ _ := c_figure table (bs "hits: ") T_hits in
  let$ _ := c_figure table (bs "misses: ") T_misses in
  let$ _ := c_figure table (bs "seeks: ") T_seeks in
  let$ _ := c_figure table (bs "overwrites: ") T_overwrites in
  let$ _ := c_figure table (bs "longest entry: ") T_max_data_length in
  let$ default := ptr_at table T_default_translation in
  let$ text := (match default with Some default => bytes (c_read default) | None => wret (bs "(null)") end) in
  let$ _ := c_print Stdout (line (bs "default translation: " ++ text)) in
  let$ max_key := int_at table T_max_key in
  c_print Stdout (line (bs "maximum key: " ++ code_lower (unsigned_of max_key))).

(** ** src/check_table.c: main *)

(** src/check_table.c:414-429 *)
Definition c_check_file (percent : nat -> nat -> str) (o : check_options) (name : str) (first second : table_file) (denied_size : nat) : wmem N :=
  let$ _ := c_print Stdout (line (bs "checking: " ++ name)) in
  let$ table := c_check_table first denied_size (if k_hash o then 1 else 0)%Z in
  let$ table :=
    (if k_builtin o then
       let$ new_table := c_check_again second table in
       let$ _ := c_table_free table in
       wret new_table
     else wret table) in
  let$ _ :=
    (match table with
     | Some p =>
       let$ _ := (if k_dump o then c_table_dump p (k_verbose o) else wret tt) in
       let$ _ := c_table_stats percent p in
       c_table_free table
     | None => wret tt
     end) in
  wret 0%N.

(** src/check_table.c:376-436 [main] *)
Definition c_check_main (percent : nat -> nat -> str) (posixly_correct : bool) (args : list str) (first second : str -> table_file) (denied_size : str -> nat) : wmem N :=
  let (codes, files) := getopt posixly_correct args [] in
  let$ o := (fun s => let% o := check_getopt codes (mkCheck false false true false) in done (o, s)) in
  match o with
  | inr status => wret status
  | inl o =>
    match files with
    | [] => let$ _ := c_print Stdout (line (bs "please specify a file to operate on")) in wret 255%N
    | f :: _ => c_check_file percent o f (first f) (second f) (denied_size f)
    end
  end.

End check.
