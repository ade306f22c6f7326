(** * The parts of stdio the program relies on *)

From Verif Require Import Base.

Local Open Scope nat_scope.

Definition newline : byte := x0a.

(** fgets: at most [room] bytes, up to and including the first newline.  Result: the
    bytes stored in front of the NUL, and the rest of the stream. *)
Fixpoint fgets_bytes (room : nat) (input : list byte) : list byte * list byte :=
  match room, input with
  | S room', c :: rest =>
    if beq c newline then ([c], rest)
    else let (piece, rest') := fgets_bytes room' rest in (c :: piece, rest')
  | _, _ => ([], input)
  end.

(** ** sscanf

    The conversions used in src/parse_table.c, as glibc performs them on the C string
    [s].  The number of bytes consumed so far is what %n reports. *)

(** isspace in the C locale; no other byte is white space in UTF-8 locales either. *)
Definition is_space (c : byte) : bool :=
  (bN c =? 32)%N || ((9 <=? bN c)%N && (bN c <=? 13)%N).

(** A white-space directive, or the white space skipped before %s and %i: the number
    of bytes consumed and the rest. *)
Fixpoint skip_space (s : str) : nat * str :=
  match s with
  | c :: r => if is_space c then let (n, r') := skip_space r in (S n, r') else (0, s)
  | [] => (0, [])
  end.

(** The bytes up to the first one that satisfies [stop]. *)
Fixpoint scan_until (stop : byte -> bool) (s : str) : str * str :=
  match s with
  | c :: r => if stop c then ([], s) else let (w, r') := scan_until stop r in (c :: w, r')
  | [] => ([], [])
  end.

(** "%s": None is an input failure (EOF). *)
Definition scan_s (s : str) : option (str * str) :=
  let (_, r) := skip_space s in
  match r with
  | [] => None
  | _ => Some (scan_until is_space r)
  end.

(** " %s %n": the word and the offset. *)
Definition scan_word (s : str) : option (str * nat) :=
  match scan_s s with
  | None => None
  | Some (w, r) => let (n, r') := skip_space r in Some (w, length s - length r')
  end.

(** "%[^q]": None when the set matches nothing (matching failure or EOF). *)
Definition scan_set (q : byte) (s : str) : option str :=
  match fst (scan_until (beq q) s) with
  | [] => None
  | w => Some w
  end.

(** ** %i *)

Definition digit_value (base : N) (c : byte) : option N :=
  let n := bN c in
  let v := if (48 <=? n)%N && (n <=? 57)%N then Some (n - 48)%N
           else if (97 <=? n)%N && (n <=? 122)%N then Some (n - 87)%N
           else if (65 <=? n)%N && (n <=? 90)%N then Some (n - 55)%N
           else None in
  match v with
  | Some d => if (d <? base)%N then Some d else None
  | None => None
  end.

(** The digits from here on: value, number of digits, rest. *)
Fixpoint scan_digits (base : N) (acc : N) (s : str) : N * nat * str :=
  match s with
  | c :: r =>
    match digit_value base c with
    | Some d => let '(v, n, r') := scan_digits base (base * acc + d) r in (v, S n, r')
    | None => (acc, 0, s)
    end
  | [] => (acc, 0, [])
  end.

(** strtol's saturation and the conversion from long to int. *)
Definition to_int (z : Z) : Z :=
  let clamped := if (2 ^ 63 <=? z)%Z then (2 ^ 63 - 1)%Z else if (z <? - 2 ^ 63)%Z then (- 2 ^ 63)%Z else z in
  ((clamped + 2 ^ 31) mod 2 ^ 32 - 2 ^ 31)%Z.

(** The magnitude: "0x" and digits (possibly none: the value is then 0), "0" and octal
    digits, or decimal digits.  None is a matching failure. *)
Definition scan_magnitude (s : str) : option (N * str) :=
  match s with
  | c :: r =>
    if beq c "0" then
      match r with
      | x :: r' =>
        if beq x "x" || beq x "X" then
          let '(v, _, rest) := scan_digits 16 0 r' in Some (v, rest)
        else let '(v, _, rest) := scan_digits 8 0 r in Some (v, rest)
      | [] => Some (0%N, [])
      end
    else
      match scan_digits 10 0 s with
      | (_, 0, _) => None
      | (v, _, rest) => Some (v, rest)
      end
  | [] => None
  end.

(** "%i %n": [inl] the value and the offset; [inr true] an input failure (EOF), [inr
    false] a matching failure. *)
Definition scan_int (s : str) : (Z * nat) + bool :=
  let (_, r) := skip_space s in
  match r with
  | [] => inr true
  | c :: r' =>
    let '(negative, m) := if beq c "-" then (true, r') else if beq c "+" then (false, r') else (false, r) in
    match scan_magnitude m with
    | None => inr false
    | Some (v, rest) =>
      let (_, rest') := skip_space rest in
      inl (to_int (if negative then - Z.of_N v else Z.of_N v), length s - length rest')
    end
  end.

(** ** strncasecmp *)

Definition to_lower (c : byte) : byte := if (65 <=? bN c)%N && (bN c <=? 90)%N then Nb (bN c + 32) else c.

(** strncasecmp(a, b, n) == 0 *)
Fixpoint strncaseeq (n : nat) (a b : str) : bool :=
  match n with
  | 0 => true
  | S n' =>
    match a, b with
    | [], [] => true
    | x :: a', y :: b' => beq (to_lower x) (to_lower y) && strncaseeq n' a' b'
    | _, _ => false
    end
  end.

(** ** printf *)

(** The digits that printf writes. *)
Definition digit_char (d : N) : byte := nth (N.to_nat d) (bs "0123456789abcdef") "0"%byte.

Fixpoint radix (base : N) (fuel : nat) (n : N) (acc : str) : str :=
  match fuel with
  | O => acc
  | S fuel' =>
    let acc := digit_char (n mod base) :: acc in
    if (n / base =? 0)%N then acc else radix base fuel' (n / base) acc
  end.

Definition number (base n : N) : str := radix base (S (N.to_nat (N.log2 n))) n [].

(** printf "%d" of an unsigned int *)
Definition printf_d (n : N) : str :=
  let u := (n mod 2 ^ 32)%N in
  if (u <? 2 ^ 31)%N then number 10 u else bs "-" ++ number 10 (2 ^ 32 - u).

(** toupper of the digits of printf *)
Definition upper_digit (c : byte) : byte := if (97 <=? bN c)%N then Nb (bN c - 32) else c.

(** "%0[width]X" *)
Definition hex_upper (width : nat) (n : N) : str :=
  let s := map upper_digit (number 16 n) in repeat "0"%byte (width - length s) ++ s.
