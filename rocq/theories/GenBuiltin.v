(** * Model of src/generate_builtin_table.c and bin/generate-builtin.sh *)

From Verif Require Import Base Stdio Table ParseTable Options.

Local Open Scope nat_scope.

Definition c_quote : byte := x22.
Definition backslash : byte := x5c.

(** src/generate_builtin_table.c:36-56: the loop; [cap] bytes are allocated *)
Fixpoint escape_loop (cap : N) (acc : list byte) (s : str) : res (list byte) :=
  match s with
  | [] => Ok acc
  | c :: r =>
    if beq c c_quote then do a <- wr cap acc backslash; do a <- wr cap a c; escape_loop cap a r
    else if beq c backslash then
      let next := match r with d :: _ => d | [] => NUL end in
      do a <- (if negb (beq next "u") && negb (beq next "U") then wr cap acc backslash else Ok acc);
      do a <- wr cap a c; escape_loop cap a r
    else do a <- wr cap acc c; escape_loop cap a r
  end.

(** src/generate_builtin_table.c:31-59 [escape_string] *)
Definition escape_string (s : str) : res str :=
  let cap := size_t (strlen s * 2 + 1) in
  do acc <- escape_loop cap [] s; finish cap acc.

(** "%04x" *)
Definition hex4 (n : N) : str := let s := number 16 n in repeat "0"%byte (4 - length s) ++ s.

(** "%d" of a nonnegative int *)
Definition dec (n : N) : str := number 10 n.

Definition line (s : str) : str := s ++ [eol].

(** lines 86-99: a row *)
Definition row_code (r : row) : res str :=
  if (r_key r =? 0)%N then Ok []
  else match r_data r with
  | None => UB NullDeref
  | Some d =>
    do e <- escape_string d;
    Ok (line (bs "    { .key  = 0x" ++ hex4 (r_key r) ++ bs ", .data = " ++ [c_quote] ++ e ++ [c_quote] ++ bs " },"))
  end.

Fixpoint rows_code (rows : list row) : res str :=
  match rows with
  | [] => Ok []
  | r :: rest => do a <- row_code r; do b <- rows_code rest; Ok (a ++ b)
  end.

Definition BUILTIN_TABLE_MULTIPLE : N := 256.

(** line 149; the division is one of integers *)
Definition loader_size (used : N) : N := (used / BUILTIN_TABLE_MULTIPLE + 1) * BUILTIN_TABLE_MULTIPLE.

(** lines 71-150: what is printed for table [t], with [name] for NEW *)
Definition table_code (name file : str) (t : table) : res str :=
  do rows <- rows_code (t_rows t);
  let used := N.of_nat (t_used t) in
  Ok (line [] ++ line (bs "/**") ++ line (bs " * Generated from " ++ file) ++ line (bs " */") ++ line [] ++
      line (bs "static table_row_t builtin_" ++ name ++ bs "_rows[" ++ dec used ++ bs "] = {") ++
      rows ++
      line (bs "};") ++ line [] ++
      line (bs "static table_t builtin_" ++ name ++ bs "_table = {") ++
      line (bs "    .length              = " ++ dec used ++ bs ",") ++
      line (bs "    .used                = " ++ dec used ++ bs ",") ++
      line (bs "    .max_data_length     = " ++ dec (N.of_nat (t_maxdata t)) ++ bs ",") ++
      line (bs "    .max_key             = 0x" ++ hex4 (t_maxkey t) ++ bs ",") ++
      line (bs "    .hits                = 0,") ++
      line (bs "    .misses              = 0,") ++
      line (bs "    .seeks               = 0,") ++
      line (bs "    .overwrites          = " ++ dec (N.of_nat (t_overwrites t)) ++ bs ",") ++
      line (bs "    .use_hash            = 0,") ++
      line (bs "    .builtin             = 1,") ++
      line (bs "    .rows                = builtin_" ++ name ++ bs "_rows,") ++
      line (bs "    .default_translation = " ++
            match t_default t with
            | None => bs "NULL"
            | Some d => [c_quote] ++ d ++ [c_quote]
            end ++ bs ",") ++
      line (bs "};") ++ line [] ++
      line (bs "table_t *load_builtin_" ++ name ++ bs "_table(void)") ++
      line (bs "{") ++
      line (bs "    return table_resize(&builtin_" ++ name ++ bs "_table, " ++ dec (loader_size used) ++ bs ", 1);") ++
      line (bs "}")).

(** src/generate_builtin_table.c:61-151 [generate_loader]: what is printed for a table
    file with the given contents; [file] is the last part of its path. *)
Definition generate_loader (locale file : str) (contents : list byte) : res str :=
  do hold <- parse_table locale contents;
  match hold with
  | None => UB NullDeref
  | Some hold =>
    if (2 ^ 31 <=? t_maxkey hold + 1)%N then UB IntOverflow
    else table_code (bs "NEW") file (table_resize hold (Z.of_N (t_maxkey hold) + 1) true)
  end.

(** ** bin/generate-builtin.sh *)

(** sed s/NEW/name/: the first NEW of every line *)
Fixpoint starts (p s : str) : option str :=
  match p, s with
  | [], _ => Some s
  | a :: p', b :: s' => if beq a b then starts p' s' else None
  | _, [] => None
  end.

(** [fresh]: nothing replaced on this line yet. *)
Fixpoint sed (fuel : nat) (name : str) (fresh : bool) (s : str) : str :=
  match fuel with
  | O => []
  | S fuel' =>
    match (if fresh then starts (bs "NEW") s else None) with
    | Some rest => name ++ sed fuel' name false rest
    | None =>
      match s with
      | [] => []
      | c :: rest => c :: sed fuel' name (fresh || beq c eol) rest
      end
    end
  end.

(** One pass of the loop (lines 21-24). *)
Definition section (locale : str) (name : str) (contents : list byte) : res str :=
  do text <- generate_loader locale (name ++ bs ".tbl") contents;
  Ok (sed (S (length text)) name true text).
