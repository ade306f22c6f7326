(** * Model of src/escape_utf_8.c in memory

    Built without DEBUG.  Compare Escape.v, where the table is a list of rows.  [literal] gives
    the address of a string literal, [static] that of [builtin_c_escape_table] (lines 68-81).
    The counters of the loops stay far below the largest int, so that i++ is an addition. *)

From Verif Require Import Base Stdio Table GenBuiltin Filter Prog File Inline Escape Startup Mem Words CTable CConfig COptions CRun CWork.

Local Open Scope nat_scope.

Section escape.

Context {al : allocator} (literal : str -> ptr) (static : ptr).

(** src/escape_utf_8.c:103-106, 110-111 and 115-116: [snprintf(work, MAX_LENGTH, ...);
    table_put(table, i, work);] *)
Definition c_store_text (table work : ptr) (i : Z) (text : str) : wmem unit :=
  let$ _ := bytes (c_snprintf work (N.of_nat MAX_LENGTH) text) in
  let$ _ := c_table_put (Some table) (unsigned_of i) work in
  wret tt.

(** src/escape_utf_8.c:102-107: from [i] up to [limit] *)
Definition c_store_missing (table work : ptr) (i limit : Z) : wmem Z :=
  wwhile (fun i =>
            if (i <? limit)%Z then
              let$ found := c_table_get (Some table) (unsigned_of i) in
              let$ _ := match found with
                        | None => c_store_text table work i [Nb (Z.to_N i)]
                        | Some _ => wret tt
                        end in
              wret (inl (i + 1)%Z)
            else wret (inr i))
         i.

(** src/escape_utf_8.c:109-112 and 114-117: likewise *)
Definition c_store_range (table work : ptr) (i limit : Z) (text : N -> str) : wmem Z :=
  wwhile (fun i =>
            if (i <? limit)%Z then
              let$ _ := c_store_text table work i (text (Z.to_N i)) in
              wret (inl (i + 1)%Z)
            else wret (inr i))
         i.

(** src/escape_utf_8.c:92-126 [generate_c_escape_table] *)
Definition c_generate_c_escape_table : wmem (option ptr) :=
  let$ work := bytes (malloc (N.of_nat MAX_LENGTH)) in
  let$ table := c_table_resize (Some static) 0x110000 1 in
  let$ _ := c_store_missing table work 0x20 0x7F in
  let$ i := c_store_range table work 0x80 0x10000 (fun i => backslash :: "u"%byte :: hex_upper 4 i) in
  let$ _ := c_store_range table work i 0x110000 (fun i => backslash :: "U"%byte :: hex_upper 8 i) in
  let$ _ := bytes (free work) in
  wret (Some table).

(** src/escape_utf_8.c:141-150: the options, with the sequence *)
Definition c_escape_options : wmem ptr :=
  let$ table := c_generate_c_escape_table in
  let$ options := c_options_init in
  let$ sequence := c_sequence_init (literal (bs "utf_8-escape")) in
  let$ _ := assign options OP_sequence_to_use (Ptr sequence) in
  let$ name := bytes (c_strdup (literal (bs "escape_utf_8.c"))) in
  let$ _ := assign sequence SQ_source_filename (Ptr name) in
  let$ filter := c_filter_init (cleaner_code F_utf_8) in
  let$ _ := assign sequence SQ_filters (Ptr filter) in
  let$ name := bytes (c_strdup (literal (bs "escape_utf_8.c"))) in
  let$ _ := assign filter FT_filename (Ptr name) in
  let$ _ := assign filter FT_table (match table with Some table => Ptr table | None => Zero end) in
  wret options.

(** src/escape_utf_8.c:134-159 [main]; of the options, parse_inline uses the sequence *)
Definition w_escape_main (pf : platform) : sprog N :=
  let# options := inner c_escape_options in
  let# sequence_to_use := inner (ptr_at options OP_sequence_to_use) in
  let# _ := w_parse_inline literal sequence_to_use None (mkOptions pf false false false false false false 0 None None None None None) in
  sret EXIT_SUCCESS.

End escape.
