(** * Model of src/parse_table.c in memory

    Compare ParseTable.v and Startup.v, where the buffers are lists. *)

From Verif Require Import Base Stdio Table ParseTable Prog Warnings Startup Mem Words CTable.

Local Open Scope nat_scope.

(** A string stored by sscanf at [dst]. *)
Definition c_put_string (dst : ptr) (w : str) : mem unit := let* _ := c_write dst (w ++ [NUL]) in mret tt.

(** fgets(work, 1024, file), when there is something to read: the rest of the file *)
Definition c_fgets (work : ptr) (input : list byte) : mem (list byte) :=
  let (piece, rest) := fgets_bytes (TABLE_BUFFER - 1) input in
  let* _ := c_write work (piece ++ [NUL]) in mret rest.

(** sscanf(work, " %s %n", parsed, &offset): whether there is a word, and [offset] *)
Definition c_scan_word (work parsed : ptr) (offset : option nat) : mem (bool * option nat) :=
  let* s := c_read work in
  match scan_word s with
  | Some (w, n) => let* _ := c_put_string parsed w in mret (true, Some n)
  | None => mret (false, offset)
  end.

(** src/parse_table.c:107-113, 132-138, 177-183: the text at [p] *)
Definition c_scan_text (p parsed : ptr) : mem unit :=
  let* c := load p in
  if beq c double_quote then
    let* s := c_read (plus p 1) in
    match scan_set double_quote s with Some w => c_put_string parsed w | None => mret tt end
  else
    let* c := load p in
    if beq c single_quote then
      let* s := c_read (plus p 1) in
      match scan_set single_quote s with Some w => c_put_string parsed w | None => mret tt end
    else
      let* s := c_read p in
      match scan_s s with Some (w, _) => c_put_string parsed w | None => mret tt end.

(** [work + offset] *)
Definition c_at_offset (work : ptr) (offset : option nat) : mem ptr :=
  match offset with
  | Some n => mret (plus work n)
  | None => fun _ => quietly (UB Uninitialised)
  end.

(** strncasecmp(p, text, n) == 0 *)
Definition c_starts (n : nat) (p : ptr) (text : str) : mem bool :=
  let* s := c_read p in mret (strncaseeq n s text).

Section parse_table.

Context {al : allocator}.

(** What the loop goes on with: the state (whether it is INSIDE_STATE) and [offset]; or the
    row that could not be added. *)
Definition outcome : Type := (bool * option nat) + N.

(** src/parse_table.c:84-195: one line *)
Definition c_parse_line (locale : str) (table work parsed : ptr) (inside : bool) (offset : option nat) : wmem outcome :=
  let$ c := bytes (load work) in
  if beq c "#" then wret (inl (inside, offset))
  else
    let$ _ := bytes (store parsed NUL) in
    if negb inside then
      let$ (_, offset) := bytes (c_scan_word work parsed offset) in
      let$ start := bytes (c_starts 5 parsed (bs "start")) in
      if start then
        let$ p := bytes (c_at_offset work offset) in
        let$ c := bytes (load p) in
        if beq c NUL then wret (inl (true, offset))
        else
          let$ _ := bytes (c_scan_text p parsed) in
          let$ n := bytes (c_strlen parsed) in
          let$ yes := bytes (c_starts (N.to_nat n) parsed locale) in
          wret (inl (yes, offset))
      else
        let$ default := bytes (c_starts 7 parsed (bs "default")) in
        if default then
          let$ p := bytes (c_at_offset work offset) in
          let$ c := bytes (load p) in
          if beq c NUL then
            let$ _ := assign table T_default_translation Zero in
            wret (inl (false, offset))
          else
            let$ _ := bytes (c_scan_text p parsed) in
            let$ copy := bytes (c_strdup parsed) in
            let$ _ := assign table T_default_translation (Ptr copy) in
            wret (inl (false, offset))
        else wret (inl (false, offset))
    else
      let$ s := bytes (c_read work) in
      let (code, offset) := match scan_int s with
                            | inl (code, n) => (code, Some n)
                            | inr _ => ((-1)%Z, offset)
                            end in
      if (code <? 0)%Z then
        let$ (found, offset) := bytes (c_scan_word work parsed offset) in
        let$ last := (if found : bool then bytes (c_starts 5 parsed (bs "end")) else wret false) in
        wret (inl (negb last, offset))
      else
        let$ p := bytes (c_at_offset work offset) in
        let$ c := bytes (load p) in
        if beq c NUL then wret (inl (true, offset))
        else
          let$ _ := bytes (c_scan_text p parsed) in
          let$ ret := c_table_put (Some table) (Z.to_N code) parsed in
          if (ret =? -1)%Z then wret (inr (Z.to_N code)) else wret (inl (true, offset)).

(** src/parse_table.c:84-202: the loop, and what comes behind it.  The memory of the FILE is
    that of the library. *)
Fixpoint c_parse_loop (fuel : nat) (locale : str) (input : list byte) (table work parsed : ptr) (inside : bool) (offset : option nat)
  : wmem (option ptr) :=
  let finish :=
    let$ _ := bytes (free work) in
    let$ _ := bytes (free parsed) in
    wret (Some table) in
  match fuel with
  | O => finish
  | S fuel' =>
    match input with
    | [] => finish
    | _ =>
      let$ rest := bytes (c_fgets work input) in
      let$ next := c_parse_line locale table work parsed inside offset in
      match next with
      | inl (inside, offset) => c_parse_loop fuel' locale rest table work parsed inside offset
      | inr code =>
        let$ text := bytes (c_read parsed) in
        let$ _ := saying (complain (row_rejected code text)) in
        let$ _ := c_table_free (Some table) in
        let$ _ := bytes (free work) in
        let$ _ := bytes (free parsed) in
        wret None
      end
    end
  end.

(** src/parse_table.c:27-202 [parse_table] of a readable regular file *)
Definition c_parse_table (locale : str) (contents : list byte) : wmem (option ptr) :=
  let$ table := c_table_init (Z.of_nat (table_capacity (length contents))) in
  let$ work := bytes (malloc (N.of_nat TABLE_BUFFER)) in
  let$ parsed := bytes (malloc (N.of_nat TABLE_BUFFER)) in
  c_parse_loop (length contents) locale contents table work parsed false None.

(** The same of a file of the given size that stat finds, but fopen does not open. *)
Definition c_parse_denied (file_size : nat) (message : str) : wmem (option ptr) :=
  let$ _ := c_table_init (Z.of_nat (table_capacity file_size)) in
  let$ _ := saying (complain (bs "Unable to open translation table: " ++ message)) in
  wret None.

End parse_table.
