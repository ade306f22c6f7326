(** * Model of src/parse_table.c *)

From Verif Require Import Base Stdio Table.

Local Open Scope nat_scope.

(** src/parse_table.c:20 *)
Definition LINE_LENGTH : nat := 6.

(** src/parse_table.c:78-80: both buffers *)
Definition TABLE_BUFFER : nat := 1024.

(** A store into [parsed] by sscanf: the text and its NUL must fit. *)
Definition store_parsed (w : str) : res str :=
  if length w <? TABLE_BUFFER then Ok w else UB BufferOverflow.

(** [work + offset].  The variable offset is None as long as it is not set. *)
Definition at_offset (work : str) (offset : option nat) : res str :=
  match offset with
  | None => UB Uninitialised
  | Some n => if n <=? length work then Ok (skipn n work) else UB ReadPastEnd
  end.

Definition double_quote : byte := x22.
Definition single_quote : byte := x27.

(** src/parse_table.c:107-113, 132-138, 177-183: the text at [r], which is not empty;
    [parsed] keeps its contents when the conversion fails. *)
Definition scan_text (r parsed : str) : res str :=
  match r with
  | c :: r' =>
    if beq c double_quote then
      match scan_set double_quote r' with Some w => store_parsed w | None => Ok parsed end
    else if beq c single_quote then
      match scan_set single_quote r' with Some w => store_parsed w | None => Ok parsed end
    else
      match scan_s r with Some (w, _) => store_parsed w | None => Ok parsed end
  | [] => Ok parsed
  end.

Definition set_default (t : table) (d : option str) : table :=
  mkTable (t_rows t) (t_used t) (t_maxdata t) d (t_overwrites t) (t_hash t) (t_builtin t) (t_maxkey t).

(** The variables of the loop: whether the state is INSIDE_STATE, offset, and table. *)
Record pt_state := mkPt { pt_inside : bool; pt_offset : option nat; pt_table : table }.

(** src/parse_table.c:84-195: one line.  None means that the table is given up. *)
Definition parse_table_line (locale : str) (work : str) (st : pt_state) : res (option pt_state) :=
  let t := pt_table st in
  if match work with c :: _ => beq c "#" | [] => false end then Ok (Some st)
  else if negb (pt_inside st) then
    (* lines 95-144 *)
    do scanned <- (match scan_word work with
                   | Some (w, n) => do p <- store_parsed w; Ok (p, Some n)
                   | None => Ok ([], pt_offset st)
                   end);
    let (parsed, offset) := scanned : str * option nat in
    let stay t := Ok (Some (mkPt false offset t)) in
    if strncaseeq 5 parsed (bs "start") then
      do r <- at_offset work offset;
      match r with
      | [] => Ok (Some (mkPt true offset t))
      | _ =>
        do parsed <- scan_text r parsed;
        Ok (Some (mkPt (strncaseeq (length parsed) parsed locale) offset t))
      end
    else if strncaseeq 7 parsed (bs "default") then
      do r <- at_offset work offset;
      match r with
      | [] => stay (set_default t None)
      | _ => do parsed <- scan_text r parsed; stay (set_default t (Some parsed))
      end
    else stay t
  else
    (* lines 150-195 *)
    let (code, offset) := match scan_int work with
                          | inl (code, n) => (code, Some n)
                          | inr _ => ((-1)%Z, pt_offset st)
                          end in
    if (code <? 0)%Z then
      match scan_word work with
      | Some (w, n) =>
        do parsed <- store_parsed w;
        Ok (Some (mkPt (negb (strncaseeq 5 parsed (bs "end"))) (Some n) t))
      | None => Ok (Some (mkPt true offset t))
      end
    else
      do r <- at_offset work offset;
      match r with
      | [] => Ok (Some (mkPt true offset t))
      | _ =>
        do parsed <- scan_text r [];
        match table_put t (Z.to_N code) parsed with
        | (t', Some _) => Ok (Some (mkPt true offset t'))
        | (_, None) => Ok None
        end
      end.

(** src/parse_table.c:84: fgets(work, 1024, table_file) *)
Definition next_line (input : list byte) : option (list byte * list byte) :=
  match input with
  | [] => None
  | _ => Some (fgets_bytes (TABLE_BUFFER - 1) input)
  end.

(** The loop; every call of fgets takes a byte at least. *)
Fixpoint parse_table_loop (fuel : nat) (locale : str) (input : list byte) (st : pt_state)
  : res (option table) :=
  match fuel with
  | O => Ok (Some (pt_table st))
  | S fuel' =>
    match next_line input with
    | None => Ok (Some (pt_table st))
    | Some (bytes, rest) =>
      do next <- parse_table_line locale (cstr bytes) st;
      match next with
      | None => Ok None
      | Some st' => parse_table_loop fuel' locale rest st'
      end
    end
  end.

(** src/parse_table.c:53-66 *)
Definition table_capacity (file_size : nat) : nat :=
  let size := file_size / LINE_LENGTH in
  if size <? 500 then 500 else size.

(** src/parse_table.c:27-202 [parse_table] of a readable regular file with the given
    contents; [locale] is what setlocale(LC_CTYPE, "") returns ("" for NULL).  None is
    the NULL pointer.  For the message printed for a rejected row see
    Startup.v.  Not modelled: files that change between stat and fopen; sizes that do not fit an int. *)
Definition parse_table (locale : str) (contents : list byte) : res (option table) :=
  parse_table_loop (length contents) locale contents
    (mkPt false None (table_init (Z.of_nat (table_capacity (length contents))))).
