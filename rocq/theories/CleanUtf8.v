(** * Model of src/clean_utf_8.c *)

From Verif Require Import Base Table CleanString.

(** src/clean_utf_8.c:242-245 [is_utf_8_cont] *)
Definition is_utf_8_cont (c : byte) : bool := (N.land (bN c) 0xC0 =? 0x80)%N.

(** src/clean_utf_8.c:254-257 [is_utf_8_start] *)
Definition is_utf_8_start (c : byte) : bool := (N.land (bN c) 0xC0 =? 0xC0)%N.

(** src/clean_utf_8.c:217-232 [get_utf_8_width]; None stands for -1 *)
Definition get_utf_8_width (c : byte) : option nat :=
  let n := bN c in
  if is_utf_8_start c then
    if (N.land n 0xE0 =? 0xC0)%N then Some 2%nat
    else if (N.land n 0xF0 =? 0xE0)%N then Some 3%nat
    else if (N.land n 0xF8 =? 0xF0)%N then Some 4%nat
    else if (N.land n 0xFC =? 0xF8)%N then Some 5%nat
    else if (N.land n 0xFE =? 0xFC)%N then Some 6%nat
    else if (N.land n 0x80 =? 0x80)%N then None else Some 1%nat
  else if (N.land n 0x80 =? 0x80)%N then None else Some 1%nat.

(** src/clean_utf_8.c:48-49 unpack_start, 86-116.  [chr & ~MASK] on the value of
    an unsigned char. *)
Definition unpack_start (c : byte) (width : nat) : N :=
  match width with
  | 1%nat => bN c
  | 2%nat => N.land (bN c) 0x1F
  | 3%nat => N.land (bN c) 0x0F
  | 4%nat => N.land (bN c) 0x07
  | 5%nat => N.land (bN c) 0x03
  | _ => N.land (bN c) 0x01
  end.

(** src/clean_utf_8.c:48 unpack_cont *)
Definition unpack_cont (c : byte) : N := N.land (bN c) 0x3F.

(** src/clean_utf_8.c:22-23 *)
Definition null_replacement : str := bs "_hidden_null_".
Definition invalid_replacement : byte := "_"%byte.

Definition UNICODE_MAX_VALUE : N := 0x10FFFF.

(** src/clean_utf_8.c:123-143: the continuation loop.  [rest] are the bytes after
    the current one.  Returns [inl (value, eaten, rest')] when [expected] bytes
    were found ([eaten] are the continuation bytes, in order) and [inr rest'] on
    failure, [rest'] starting with the byte that broke the sequence (or empty
    for the terminator).  new_value is an unsigned int. *)
Fixpoint utf_8_cont_loop (expected : nat) (new_value : N) (rest : str) (eaten : list byte)
  : (N * list byte * str) + str :=
  match expected with
  | O => inl (new_value, rev eaten, rest)
  | S e =>
    match rest with
    | [] => inr []
    | c :: rest' =>
      if is_utf_8_cont c
      then utf_8_cont_loop e ((new_value * 64 + unpack_cont c) mod 2 ^ 32)%N rest' (c :: eaten)
      else inr rest
    end
  end.

(** src/clean_utf_8.c:158-181: the text to write for a code point; None means
    that the original bytes are copied. *)
Definition utf_8_replacement (t : table) (new_value : N) : option str :=
  match table_get t new_value with
  | Some r => Some r
  | None =>
    if (new_value =? 0)%N then Some null_replacement
    else if (UNICODE_MAX_VALUE <? new_value)%N then Some [invalid_replacement]
    else t_default t
  end.

(** src/clean_utf_8.c:83-201: main loop.  [fuel] bounds the number of iterations;
    every iteration consumes at least one byte, so [length input] is enough (see
    utf_8_loop_fuel in CleanUtf8Proofs.v). *)
Fixpoint utf_8_loop (fuel : nat) (cap : N) (t : table) (input : str) (acc : list byte)
  : res (list byte) :=
  match input with
  | [] => Ok acc
  | c :: rest =>
    match fuel with
    | O => Ok acc
    | S fuel' =>
      match get_utf_8_width c with
      | None =>
        do a <- wr cap acc invalid_replacement; utf_8_loop fuel' cap t rest a
      | Some width =>
        match utf_8_cont_loop (width - 1) (unpack_start c width) rest [] with
        | inr rest' =>
          do a <- wr cap acc invalid_replacement; utf_8_loop fuel' cap t rest' a
        | inl (new_value, eaten, rest') =>
          match utf_8_replacement t new_value with
          | Some replace => do a <- wrs cap acc replace; utf_8_loop fuel' cap t rest' a
          | None => do a <- wrs cap acc (c :: eaten); utf_8_loop fuel' cap t rest' a
          end
        end
      end
    end
  end.

(** src/clean_utf_8.c:60-206 [clean_utf_8] *)
Definition clean_utf_8 (filename : str) (t : option table) : res str :=
  match t with
  | None => Exit EXIT_FAILURE
  | Some t =>
    let cap := table_cap t filename in
    do acc <- utf_8_loop (length filename) cap t filename []; finish cap acc
  end.
