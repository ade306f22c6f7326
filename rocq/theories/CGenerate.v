(** * Model of src/generate_builtin_table.c in memory

    Compare GenMain.v, where the tables and the texts are lists.  The arguments, which are only
    read, are lists here, too; that basename may write over trailing slashes of the argument
    is left out, as the argument is not used again. *)

From Verif Require Import Base Stdio Table ParseTable Options GenBuiltin CheckTable GenMain Prog Warnings Startup Mem Words CTable CParseTable CCheck.

Local Open Scope nat_scope.

Section generate.

Context {al : allocator}.

(** src/generate_builtin_table.c:31-59 [escape_string]; [&&] reads the next byte again *)
Definition c_escape_string (input : ptr) : mem ptr :=
  let* len := c_strlen input in
  let* ret := malloc (size_t (len * 2 + 1)) in
  let* work :=
    while (fun '(input, work) =>
             let* c := load input in
             if beq c NUL then mret (inr work)
             else if beq c c_quote then
               let* _ := store work backslash in
               let* _ := store (plus work 1) c in
               mret (inl (plus input 1, plus (plus work 1) 1))
             else if beq c backslash then
               let* next := load (plus input 1) in
               let* alone :=
                 (if beq next "u" then mret true
                  else let* next := load (plus input 1) in mret (beq next "U")) in
               if alone : bool then
                 let* _ := store work c in
                 mret (inl (plus input 1, plus work 1))
               else
                 let* _ := store work backslash in
                 let* _ := store (plus work 1) c in
                 mret (inl (plus input 1, plus (plus work 1) 1))
             else
               let* _ := store work c in
               mret (inl (plus input 1, plus work 1)))
          (input, ret) in
  let* _ := store work NUL in
  mret ret.

(** parse_table of what is found at a path; [denied_size] is the size of a file that cannot be
    opened *)
Definition c_loaded (locale : str) (found : table_file) (denied_size : nat) : wmem (option ptr) :=
  match found with
  | Absent => wret None
  | Locked message => c_parse_denied denied_size message
  | Readable contents => c_parse_table locale contents
  end.

(** src/generate_builtin_table.c:86-99: the rows *)
Definition c_generate_rows (table : ptr) : wmem unit :=
  wwhile (fun i =>
    let$ length := int_at table T_length in
    if (i <? length)%Z then
      let$ rows := c_rows table in
      let$ k := c_row_key rows i in
      if (k =? 0)%N then wret (inl (i + 1)%Z)
      else
        let$ rows := c_rows table in
        let$ k := c_row_key rows i in
        let$ rows := c_rows table in
        let$ data := c_row_data rows i in
        let$ data := deref data in
        let$ escaped := bytes (c_escape_string data) in
        let$ e := bytes (c_read escaped) in
        let$ _ := c_print Stdout (row_text k e) in
        wret (inl (i + 1)%Z)
    else wret (inr tt)) 0%Z.

(** lines 61-151 [generate_loader]; the size in line 149 is that of src/check_table.c:259 *)
Definition c_generate_loader (locale file : str) (found : table_file) (denied_size : nat) : wmem unit :=
  let$ hold_table := c_loaded locale found denied_size in
  let$ hold := deref hold_table in
  let$ max_key := int_at hold T_max_key in
  let$ rows := int_sum max_key 1 in
  let$ table := c_table_resize hold_table rows 1 in
  let$ _ := c_print Stdout (header_text file) in
  let$ used := int_at table T_used in
  let$ _ := c_print Stdout (array_text (Z.to_N used)) in
  let$ _ := c_generate_rows table in
  let$ _ := c_print Stdout end_text in
  let$ used := int_at table T_used in
  let$ max_data_length := int_at table T_max_data_length in
  let$ max_key := int_at table T_max_key in
  let$ overwrites := int_at table T_overwrites in
  let$ _ := c_print Stdout (members_text (Z.to_N used) (Z.to_N max_data_length) (unsigned_of max_key) (Z.to_N overwrites)) in
  let$ default := ptr_at table T_default_translation in
  let$ _ :=
    (match default with
     | None => c_print Stdout (default_text None)
     | Some default => let$ d := bytes (c_read default) in c_print Stdout (default_text (Some d))
     end) in
  let$ _ := c_print Stdout end_text in
  let$ used := int_at table T_used in
  let$ size := c_again_size used in
  c_print Stdout (loader_text (Z.to_N size)).

(** lines 153-163 [main] *)
Definition c_generator_main (locale : str) (args : list str) (found : str -> table_file) (denied_size : str -> nat) : wmem N :=
  match args with
  | [] => let$ _ := c_print Stderr (line (bs "please specify a file to operate on")) in wret 255%N
  | file :: _ => let$ _ := c_generate_loader locale (basename (Some file)) (found file) (denied_size file) in wret 0%N
  end.

End generate.
