(** * Model of src/config_file_lex.c: the scanner as generated by flex

    ConfigLex.v models the rules of src/config_file_lex.l; this file models the C program
    that flex made of them: its tables, its buffer and its handling of the end of the
    buffer.  Not modelled: the byte that YY_DO_BEFORE_ACTION overwrites with a NUL, since it
    is put back (yy_hold_char) before the buffer is read again; running out of memory.
    config_file_lineno is in Generated.v. *)

From Verif Require Import Base Stdio ConfigLex ConfigParse ParserTables.

Local Open Scope nat_scope.

(** An element of a constant table. *)
Definition tbl (t : list Z) (i : Z) : res Z :=
  if (i <? 0)%Z then UB BufferUnderread
  else match nth_error t (Z.to_nat i) with
       | Some v => Ok v
       | None => UB ReadPastEnd
       end.

(** ** One transition: src/config_file_lex.c:807-813, and again in 1267-1273 and 1295-1301

    The while loop follows yy_def; four rounds are enough (the model reports undefined
    behaviour if they are not). *)
Fixpoint yy_follow (fuel : nat) (s c : Z) : res (Z * Z) :=
  do b <- tbl yy_base s;
  do k <- tbl yy_chk (b + c);
  if (k =? s)%Z then Ok (s, c)
  else match fuel with
       | O => UB Uninitialised
       | S fuel' =>
         do d <- tbl yy_def s;
         if (111 <=? d)%Z then (do m <- tbl yy_meta c; yy_follow fuel' d m)
         else yy_follow fuel' d c
       end.

Definition yy_transition (s c : Z) : res Z :=
  do p <- yy_follow 4 s c;
  do b <- tbl yy_base (fst p);
  tbl yy_nxt (b + snd p).

(** yy_last_accepting_state and yy_last_accepting_cpos, the latter as an offset from
    yytext_ptr; None: left over from an earlier token *)
Definition last_accepting := option (Z * nat).

Definition note_accepting (s : Z) (cp : nat) (last : last_accepting) : res last_accepting :=
  do a <- tbl yy_accept s;
  Ok (if (a =? 0)%Z then last else Some (s, cp)).

(** src/config_file_lex.c:798-816, yy_match: [buf] is the buffer from yy_cp on. *)
Fixpoint yy_match (s : Z) (last : last_accepting) (cp : nat) (buf : list byte) : res (Z * nat * last_accepting) :=
  match buf with
  | [] => UB ReadPastEnd
  | b :: rest =>
    do c <- tbl yy_ec (Z.of_N (bN b));
    do last' <- note_accepting s cp last;
    do s' <- yy_transition s c;
    do base <- tbl yy_base s';
    if (base =? 234)%Z then Ok (s', S cp, last') else yy_match s' last' (S cp) rest
  end.

(** src/config_file_lex.c:818-825, yy_find_action *)
Definition yy_find_action (s : Z) (cp : nat) (last : last_accepting) : res (Z * Z * nat) :=
  do a <- tbl yy_accept s;
  if (a =? 0)%Z then
    match last with
    | Some (s', cp') => do a' <- tbl yy_accept s'; Ok (a', s', cp')
    | None => UB Uninitialised
    end
  else Ok (a, s, cp).

(** src/config_file_lex.c:1251-1276: [text] is the buffer between yytext_ptr and yy_c_buf_p. *)
Fixpoint yy_get_previous_state (s : Z) (last : last_accepting) (cp : nat) (text : list byte) : res (Z * last_accepting) :=
  match text with
  | [] => Ok (s, last)
  | b :: rest =>
    do c <- (if beq b NUL then Ok 1%Z else tbl yy_ec (Z.of_N (bN b)));
    do last' <- note_accepting s cp last;
    do s' <- yy_transition s c;
    yy_get_previous_state s' last' (S cp) rest
  end.

(** src/config_file_lex.c:1283-1306; 0 is a jam *)
Definition yy_try_NUL_trans (s : Z) (last : last_accepting) (cp : nat) : res (Z * last_accepting) :=
  do last' <- note_accepting s cp last;
  do s' <- yy_transition s 1;
  Ok ((if (s' =? 110)%Z then 0 else s')%Z, last').

(** ** The buffer *)

(** YY_BUFFER_NEW, YY_BUFFER_NORMAL, YY_BUFFER_EOF_PENDING *)
Inductive buffer_status := B_new | B_normal | B_eof_pending.

(** The current buffer: the yy_n_chars bytes in yy_ch_buf, which are followed by two
    YY_END_OF_BUFFER_CHARs; the offset of yytext_ptr in it; yy_buf_size, 2 less than the
    number of bytes allocated; yy_buffer_status.  [y_unread] is what has not been read from
    yyin yet. *)
Record scanner := mkScanner {
  y_chars : list byte;
  y_text : nat;
  y_size : Z;
  y_status : buffer_status;
  y_unread : list byte
}.

Definition EOBs : list byte := [NUL; NUL].

(** src/config_file_lex.c:139 *)
Definition YY_BUF_SIZE : Z := 16384.
(** src/config_file_lex.c:651 *)
Definition YY_READ_BUF_SIZE : Z := 8192.

(** yy_flush_buffer, src/config_file_lex.c:1538-1562: an empty buffer of the same size. *)
Definition yy_flushed (size : Z) (unread : list byte) : scanner := mkScanner [] 0 size B_new unread.

(** How many bytes a read of at most [max] bytes gets when [unread] is still to come.  On a
    regular file fread gets as many as there are; a terminal gives a line at a time, a pipe
    what is there. *)
Definition reader := list byte -> Z -> nat.

Inductive eob_act := EOB_ACT_CONTINUE_SCAN | EOB_ACT_END_OF_FILE | EOB_ACT_LAST_MATCH.

Definition INT_MAX : Z := 2147483647.

(** src/config_file_lex.c:1150-1189: the loop that doubles the buffer until there is room; the
    new size is an int. *)
Fixpoint yy_grow (fuel : nat) (size move : Z) : res Z :=
  if (0 <? size - move - 1)%Z then Ok size
  else match fuel with
       | O => UB Uninitialised
       | S fuel' => if (INT_MAX <? size * 2)%Z then UB IntOverflow else yy_grow fuel' (size * 2) move
       end.

(** src/config_file_lex.c:1110-1249 [yy_get_next_buffer].  [cp] is yy_c_buf_p, as an offset
    from yytext_ptr.  yy_fill_buffer is 1 for buffers that are read from a file. *)
Definition yy_get_next_buffer (reads : reader) (cp : nat) (y : scanner) : res (eob_act * scanner) :=
  if length (y_chars y) + 1 <? y_text y + cp then Exit YY_EXIT_FAILURE
  else
    let number_to_move := cp - 1 in
    let moved := firstn number_to_move (skipn (y_text y) (y_chars y)) in
    do r <- match y_status y with
            | B_eof_pending => Ok (y_size y, [], y_unread y)
            | _ =>
              do size <- yy_grow 32 (y_size y) (Z.of_nat number_to_move);
              let num_to_read := Z.min (size - Z.of_nat number_to_move - 1) YY_READ_BUF_SIZE in
              let n := reads (y_unread y) num_to_read in
              Ok (size, firstn n (y_unread y), skipn n (y_unread y))
            end;
    let '(size, got, unread) := r in
    let chars := moved ++ got in
    if (size <? Z.of_nat (length chars))%Z then UB BufferOverflow
    else match got with
         | [] =>
           if number_to_move =? 0 then Ok (EOB_ACT_END_OF_FILE, yy_flushed size unread)
           else Ok (EOB_ACT_LAST_MATCH, mkScanner chars 0 size B_eof_pending unread)
         | _ => Ok (EOB_ACT_CONTINUE_SCAN, mkScanner chars 0 size (y_status y) unread)
         end.

(** ** yylex *)

(** Where the scanner is in its loop: at yy_match or at yy_find_action, with
    yy_current_state and yy_cp, the latter as an offset from yytext_ptr (= yy_bp). *)
Inductive label := L_match (s : Z) (cp : nat) | L_find (s : Z) (cp : nat).

(** How a round of the loop ends: at the end of the file, or with a rule and yytext. *)
Inductive matched := M_eof | M_rule (act : Z) (text : list byte).

Definition set_status (st : buffer_status) (y : scanner) : scanner :=
  mkScanner (y_chars y) (y_text y) (y_size y) st (y_unread y).
Definition set_text (n : nat) (y : scanner) : scanner :=
  mkScanner (y_chars y) n (y_size y) (y_status y) (y_unread y).

(** From one action to the next: src/config_file_lex.c:797-840 and 976-1096. *)
Fixpoint yy_scan (reads : reader) (fuel : nat) (l : label) (last : last_accepting) (y : scanner) : res (matched * scanner) :=
  match fuel with
  | O => UB Uninitialised
  | S fuel' =>
    match l with
    | L_match s cp =>
      do r <- yy_match s last cp (skipn (y_text y + cp) (y_chars y ++ EOBs));
      let '(s', cp', last') := r in
      yy_scan reads fuel' (L_find s' cp') last' y
    | L_find s cp =>
      do r <- yy_find_action s cp last;
      let '(act, s', cp') := r in
      if (act =? 0)%Z then
        match last with
        | Some (s0, cp0) => yy_scan reads fuel' (L_find s0 cp0) last y
        | None => UB Uninitialised
        end
      else if (act <=? 23)%Z then
        Ok (M_rule act (firstn cp' (skipn (y_text y) (y_chars y ++ EOBs))), set_text (y_text y + cp') y)
      else if (act =? 24)%Z then
        (* YY_END_OF_BUFFER *)
        let amount := cp' - 1 in
        let y1 := match y_status y with B_new => set_status B_normal y | _ => y end in
        if y_text y1 + cp' <=? length (y_chars y1) then
          (* This was really a NUL. *)
          do p <- yy_get_previous_state 1 last 0 (firstn amount (skipn (y_text y1) (y_chars y1)));
          do n <- yy_try_NUL_trans (fst p) (snd p) amount;
          if (fst n =? 0)%Z then yy_scan reads fuel' (L_find (fst p) amount) (snd n) y1
          else yy_scan reads fuel' (L_match (fst n) (S amount)) (snd n) y1
        else
          do b <- yy_get_next_buffer reads cp' y1;
          match b with
          | (EOB_ACT_END_OF_FILE, y2) => Ok (M_eof, y2)
          | (EOB_ACT_CONTINUE_SCAN, y2) =>
            do p <- yy_get_previous_state 1 last 0 (firstn amount (y_chars y2));
            yy_scan reads fuel' (L_match (fst p) amount) (snd p) y2
          | (EOB_ACT_LAST_MATCH, y2) =>
            do p <- yy_get_previous_state 1 last 0 (y_chars y2);
            yy_scan reads fuel' (L_find (fst p) (length (y_chars y2))) (snd p) y2
          end
      else Exit YY_EXIT_FAILURE
    end
  end.

(** Enough rounds: one per NUL, one per read. *)
Definition scan_fuel (y : scanner) : nat := 4 * (length (y_chars y) + length (y_unread y)) + 8.

(** One round of the outer loop: yy_start is 1. *)
Definition yy_round (reads : reader) (y : scanner) : res (matched * scanner) :=
  yy_scan reads (scan_fuel y) (L_match 1 0) None y.

(** The rule behind an action number: src/config_file_lex.c:842-972 *)
Definition act_rule (act : Z) : option rule := nth_error rules (Z.to_nat (act - 1)).

(** The actions; rule 23 is ECHO, to yyout, which is /dev/null. *)
Definition yy_action (act : Z) (text : list byte) : res lexed :=
  match act_rule act with
  | Some r => lex_action r text
  | None => Ok (Lexed [] None)
  end.
