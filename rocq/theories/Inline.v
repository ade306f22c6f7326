(** * Model of parse_inline in src/file.c *)

From Verif Require Import Base Stdio CleanUtf8 Filter Prog Warnings File.

Local Open Scope nat_scope.

(** src/file.h:15-16 *)
Definition INLINE_BUF_SIZE : nat := 1024.
Definition INLINE_BUF_PADDING : nat := 16.

(** src/clean_utf_8.h:15 *)
Definition UTF_8_MAX_LENGTH : nat := 6.

(** fgets(base, size, in_fp); None is NULL, at the end of the stream.  The bytes and
    the NUL must fit into the buffer. *)
Definition fgets (size : nat) (input : list byte) : res (option (list byte * list byte)) :=
  match input with
  | [] => Ok None
  | _ =>
    let (piece, rest) := fgets_bytes (size - 1) input in
    if (length piece <? INLINE_BUF_SIZE)%nat then Ok (Some (piece, rest)) else UB BufferOverflow
  end.

(** [*seek = c] where [seek] points behind the string [base]. *)
Definition poke (base : list byte) : res unit :=
  if (length base <? INLINE_BUF_SIZE)%nat then Ok tt else UB BufferOverflow.

(** strrchr(s, '\n'): the part before the last newline *)
Fixpoint strrchr_newline (s : str) : option str :=
  match s with
  | [] => None
  | c :: r =>
    match strrchr_newline r with
    | Some p => Some (c :: p)
    | None => if beq c newline then Some [] else None
    end
  end.

(** src/file.c:301-312: seek backwards.  [before] are the bytes up to and including the
    one under [seek], last first; [after] those between [seek] and [hold].  At most
    [limit] further steps are allowed. *)
Fixpoint seek_back (limit : nat) (before after : list byte) : res (byte * list byte) :=
  match before with
  | [] => UB BufferUnderread
  | c :: before' =>
    match is_utf_8_cont c, limit with
    | true, S limit' => seek_back limit' before' (c :: after)
    | _, _ => Ok (c, after)
    end
  end.

(** src/file.c:322-329: skip the continuation bytes that are there; the result is what
    is still missing and what follows. *)
Fixpoint seek_ahead (remaining : nat) (after : list byte) : nat * list byte :=
  match remaining, after with
  | S remaining', c :: after' => if is_utf_8_cont c then seek_ahead remaining' after' else (remaining, after)
  | _, _ => (remaining, after)
  end.

(** src/file.c:341-373: bring bytes in one at a time.  [base] is the string so far.
    ungetc of a byte just read succeeds, except that the char 0xFF equals EOF when
    plain char is signed.  The last component tells whether the warning is printed. *)
Fixpoint bring_in (schar : bool) (remaining : nat) (base input : list byte)
  : res (list byte * list byte * bool) :=
  match remaining, input with
  | S remaining', c :: rest =>
    do _ <- poke base;
    if is_utf_8_cont c then bring_in schar remaining' (base ++ [c]) rest
    else if (schar && beq c xff)%bool then
      do _ <- poke (base ++ [c]); Ok (base ++ [c], rest, true)
    else Ok (base, input, false)
  | _, _ => do _ <- poke base; Ok (base, input, false)
  end.

(** src/file.c:282-380: complete a character at the end of a piece without newline.
    [base] is the piece as a C string. *)
Definition complete (schar : bool) (base input : list byte) : res (list byte * list byte * bool) :=
  do sought <- seek_back (UTF_8_MAX_LENGTH - 1) (rev base) [];
  let (c, after) := sought in
  if is_utf_8_start c then
    match get_utf_8_width c with
    | Some width =>
      match seek_ahead (width - 1) after with
      | (S missing, []) => bring_in schar (S missing) base input
      | _ => Ok (base, input, false)
      end
    | None => Ok (base, input, false)    (* remaining is -1, then -2 *)
    end
  else Ok (base, input, false).

Record piece := mkPiece { pc_text : str; pc_newline : bool; pc_warning : bool; pc_rest : list byte }.

(** src/file.c:278-393: read one piece; None at the end of the stream *)
Definition read_piece (schar : bool) (input : list byte) : res (option piece) :=
  do got <- fgets (INLINE_BUF_SIZE - INLINE_BUF_PADDING) input;
  match got with
  | None => Ok None
  | Some (bytes, rest) =>
    let base := cstr bytes in
    do done <- (match strrchr_newline base with
                | None => complete schar base rest
                | Some _ => Ok (base, rest, false)
                end);
    let '(base, rest, warning) := done in
    match strrchr_newline base with
    | None => Ok (Some (mkPiece base false warning rest))
    | Some text => Ok (Some (mkPiece text true warning rest))
    end
  end.

(** src/file.c:278-422: the loop.  Every piece takes at least one byte from the stream,
    so that [fuel] = length of the stream + 1 is enough (inline_fuel in InlineProofs.v). *)
Fixpoint inline_loop (fuel : nat) (o : options_t) (input : list byte) : prog unit :=
  match fuel with
  | O => Stop StopFuel
  | S fuel' =>
    let! got := lift (read_piece (p_schar (o_platform o)) input) in
    match got with
    | None => Ret tt
    | Some p =>
      let! _ := (if pc_warning p then print Stderr (bs "detox: warning: stream push back failed" ++ [newline])
                 else Ret tt) in
      let work := if is_protected (pc_text p) then None else Some (pc_text p) in
      let! cleaned := talking (sequence_run_says (o_platform o) (o_sequence_to_use o) work) in
      let! _ := print Stdout (match cleaned with Some w => w | None => pc_text p end) in
      let! _ := (if pc_newline p then print Stdout [newline] else Ret tt) in
      inline_loop fuel' o (pc_rest p)
    end
  end.

(** src/file.c:242-430 [parse_inline] with out_filename == NULL, the only way it is
    called.  The stream is read as a whole: the moments of reading are not modelled,
    nor are read errors after a successful fopen. *)
Definition parse_inline (in_filename : option str) (o : options_t) : prog unit :=
  let! contents := sys (ReadStream in_filename) in
  match contents with
  | inr message =>
    match in_filename with
    | Some f => print Stderr (f ++ bs ": " ++ message ++ [newline])
    | None => Ret tt      (* stdin need not be opened *)
    end
  | inl bytes => inline_loop (S (length bytes)) o bytes
  end.
