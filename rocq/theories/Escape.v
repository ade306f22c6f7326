(** * Model of src/escape_utf_8.c

    Built without DEBUG. *)

From Verif Require Import Base Stdio Table GenBuiltin CleanUtf8 Filter Prog File Inline.

Local Open Scope nat_scope.

(** src/escape_utf_8.c:24 *)
Definition MAX_LENGTH : nat := 16.

(** src/escape_utf_8.c:29-66 *)
Definition builtin_c_escape_rows : list row := [
  mkRow 0x0001 (Some (bs "\x01")); mkRow 0x0002 (Some (bs "\x02")); mkRow 0x0003 (Some (bs "\x03"));
  mkRow 0x0004 (Some (bs "\x04")); mkRow 0x0005 (Some (bs "\x05")); mkRow 0x0006 (Some (bs "\x06"));
  mkRow 0x0007 (Some (bs "\a")); mkRow 0x0008 (Some (bs "\b")); mkRow 0x0009 (Some (bs "\t"));
  mkRow 0x000a (Some (bs "\n")); mkRow 0x000b (Some (bs "\v")); mkRow 0x000c (Some (bs "\f"));
  mkRow 0x000d (Some (bs "\r")); mkRow 0x000e (Some (bs "\x0e")); mkRow 0x000f (Some (bs "\x0f"));
  mkRow 0x0010 (Some (bs "\x10")); mkRow 0x0011 (Some (bs "\x11")); mkRow 0x0012 (Some (bs "\x12"));
  mkRow 0x0013 (Some (bs "\x13")); mkRow 0x0014 (Some (bs "\x14")); mkRow 0x0015 (Some (bs "\x15"));
  mkRow 0x0016 (Some (bs "\x16")); mkRow 0x0017 (Some (bs "\x17")); mkRow 0x0018 (Some (bs "\x18"));
  mkRow 0x0019 (Some (bs "\x19")); mkRow 0x001a (Some (bs "\x1a")); mkRow 0x001b (Some (bs "\x1b"));
  mkRow 0x001c (Some (bs "\x1c")); mkRow 0x001d (Some (bs "\x1d")); mkRow 0x001e (Some (bs "\x1e"));
  mkRow 0x001f (Some (bs "\x1f")); mkRow 0x0022 (Some [backslash; c_quote]); mkRow 0x0027 (Some (bs "\'"));
  mkRow 0x003f (Some (bs "\?")); mkRow 0x005c (Some (bs "\\")); mkRow 0x007f (Some (bs "\x7f"))]%N.

(** src/escape_utf_8.c:68-81 *)
Definition builtin_c_escape_table : table :=
  mkTable builtin_c_escape_rows 36 4 None 0 false true 0x7f.

(** snprintf(work, MAX_LENGTH, ...): at most 15 bytes of the text. *)
Definition snprintf (text : str) : str := firstn (MAX_LENGTH - 1) text.

(** src/escape_utf_8.c:102-107: [n] rounds of the loop, from [i] on *)
Fixpoint store_missing (n : nat) (i : N) (t : table) : table :=
  match n with
  | O => t
  | S n' =>
    store_missing n' (i + 1)
      (match table_get t i with
       | None => fst (table_put t i (snprintf [Nb i]))
       | Some _ => t
       end)
  end.

(** src/escape_utf_8.c:109-112 and 114-117: likewise *)
Fixpoint store_range (n : nat) (i : N) (text : N -> str) (t : table) : table :=
  match n with
  | O => t
  | S n' => store_range n' (i + 1) text (fst (table_put t i (snprintf (text i))))
  end.

(** src/escape_utf_8.c:92-126 [generate_c_escape_table] *)
Definition generate_c_escape_table : table :=
  let t := table_resize builtin_c_escape_table 0x110000 true in
  let t := store_missing (N.to_nat (0x7F - 0x20)) 0x20 t in
  let t := store_range (N.to_nat (0x10000 - 0x80)) 0x80 (fun i => backslash :: "u"%byte :: hex_upper 4 i) t in
  store_range (N.to_nat (0x110000 - 0x10000)) 0x10000 (fun i => backslash :: "U"%byte :: hex_upper 8 i) t.

(** src/escape_utf_8.c:143-150; the other options are as options_init
    (src/parse_options.c:115-124) leaves them, zero *)
Definition escape_options (pf : platform) : options_t :=
  let filter := mkFilter F_utf_8 (Some (bs "escape_utf_8.c")) None false 0 (Some generate_c_escape_table) in
  let sequence := mkSequence (bs "utf_8-escape") [filter] (Some (bs "escape_utf_8.c")) in
  mkOptions pf false false false false false false 0 (Some sequence) None None None None.

(** src/escape_utf_8.c:134-159 [main]; reaching the end of main means returning 0 *)
Definition escape_main (pf : platform) : prog N :=
  let! _ := parse_inline None (escape_options pf) in Ret EXIT_SUCCESS.
