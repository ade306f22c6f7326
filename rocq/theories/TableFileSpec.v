(** * What any file whatsoever means as a table file

    ParseTableSpec.v says what documented lines mean; here every sequence of bytes gets a
    meaning. *)

From Verif Require Import Base Stdio ParseTable ParseTableSpec.

Local Open Scope nat_scope.

(** ** Pieces

    A file is read line by line, but never more than 1023 bytes at once. *)
Inductive pieces : list byte -> list (list byte) -> Prop :=
| pieces_end : pieces [] []
| pieces_line t rest ps :
    ~ In newline t -> length t < 1023 -> pieces rest ps -> pieces (t ++ newline :: rest) ((t ++ [newline]) :: ps)
| pieces_long t rest ps :
    ~ In newline t -> length t = 1023 -> pieces rest ps -> pieces (t ++ rest) (t :: ps)
| pieces_last t : ~ In newline t -> 0 < length t < 1023 -> pieces t [t].

(** Of a piece, what stands in front of the first NUL counts. *)
Definition visible (piece s : list byte) : Prop :=
  nonul s /\ (piece = s \/ exists hidden, piece = s ++ x00 :: hidden).

(** ** Words and texts *)

Definition space (c : byte) : Prop := blank c \/ c = newline.
Definition all_space (s : str) : Prop := Forall space s.
(** The end, or white space; the end, or something else. *)
Definition ends (s : str) : Prop := forall c r, s = c :: r -> space c.
Definition begins (s : str) : Prop := forall c r, s = c :: r -> ~ space c.

(** [s] has the first word [w]; after the white space behind it comes [r]. *)
Definition headed (s w r : str) : Prop :=
  exists a b, s = a ++ w ++ b ++ r /\ all_space a /\ word w /\ all_space b /\ begins r /\ (b = [] -> r = []).

(** The text at the beginning of [s]: up to the closing quote or the end, if there is an
    opening quote, up to white space otherwise.  With nothing between the quotes it is
    [former] instead. *)
Inductive text_at (former : str) : str -> str -> Prop :=
| text_quoted q text r :
    In q [double_quote; single_quote] -> text <> [] -> ~ In q text -> (r = [] \/ exists r', r = q :: r') ->
    text_at former (q :: text ++ r) text
| text_empty q r :
    In q [double_quote; single_quote] -> (r = [] \/ exists r', r = q :: r') -> text_at former (q :: r) former
| text_bare c text r :
    ~ In c [double_quote; single_quote] -> word (c :: text) -> ends r -> text_at former ((c :: text) ++ r) (c :: text).

(** ** Numbers *)

(** No digit of the given base at the beginning. *)
Definition no_digit (base : N) (s : str) : Prop :=
  forall c r d, s = c :: r -> digit c d -> ~ (d < base)%N.

(** [magnitude s v r]: [s] begins with a number without sign, as long as can be, with
    value [v], and [r] follows.  "0x" need not be followed by a digit. *)
Inductive magnitude : str -> N -> str -> Prop :=
| mag_decimal c s v r : c <> "0"%byte -> digits 10 (c :: s) v -> no_digit 10 r -> magnitude ((c :: s) ++ r) v r
| mag_hex x s v r :
    x = "x"%byte \/ x = "X"%byte -> digits 16 s v -> no_digit 16 r -> magnitude ("0"%byte :: x :: s ++ r) v r
| mag_octal s v r :
    digits 8 s v -> no_digit 8 r -> (forall x r', s ++ r = x :: r' -> x <> "x"%byte /\ x <> "X"%byte) ->
    magnitude ("0"%byte :: s ++ r) v r.

(** The same with a sign. *)
Definition signed (s : str) (z : Z) (r : str) : Prop :=
  exists v m, magnitude m v r /\
    (s = m /\ z = Z.of_N v \/ s = "+"%byte :: m /\ z = Z.of_N v \/ s = "-"%byte :: m /\ z = (- Z.of_N v)%Z).

(** [s] has the number [n] in front, converted to int; after the white space behind it
    comes [r]. *)
Definition numbered (s : str) (n : Z) (r : str) : Prop :=
  exists a m z b, s = a ++ m /\ all_space a /\ signed m z (b ++ r) /\ as_int z n /\ all_space b /\ begins r.

(** ** Lines *)

(** [means locale inside s inside' d]: outside or inside a block, [s] says [d], after
    which we are [inside']. *)
Inductive means (locale : str) : bool -> str -> bool -> directive -> Prop :=
| means_comment i r : means locale i ("#"%byte :: r) i Nothing
| means_blank i s : all_space s -> means locale i s i Nothing
(* outside *)
| means_start s w :
    headed s w [] -> begins_with (bs "start") w -> means locale false s true Nothing
| means_start_yes s w c r lang :
    headed s w (c :: r) -> begins_with (bs "start") w -> text_at w (c :: r) lang -> begins_with lang locale ->
    means locale false s true Nothing
| means_start_no s w c r lang :
    headed s w (c :: r) -> begins_with (bs "start") w -> text_at w (c :: r) lang -> ~ begins_with lang locale ->
    means locale false s false Nothing
| means_no_default s w :
    headed s w [] -> begins_with (bs "default") w -> means locale false s false (Default None)
| means_default s w c r text :
    headed s w (c :: r) -> begins_with (bs "default") w -> text_at w (c :: r) text ->
    means locale false s false (Default (Some text))
| means_outside s w r :
    headed s w r -> ~ begins_with (bs "start") w -> ~ begins_with (bs "default") w -> means locale false s false Nothing
(* inside: a number that is not negative; otherwise the first word is looked at *)
| means_entry s n c r text :
    numbered s n (c :: r) -> (0 <= n)%Z -> text_at [] (c :: r) text -> means locale true s true (Entry (Z.to_N n) text)
| means_number s n :
    numbered s n [] -> (0 <= n)%Z -> means locale true s true Nothing
| means_end s w r :
    headed s w r -> same_text w (bs "end") -> means locale true s false Nothing
| means_inside s w r :
    (forall n r', numbered s n r' -> (n < 0)%Z) -> headed s w r -> ~ same_text w (bs "end") ->
    means locale true s true Nothing.

Inductive file_means (locale : str) : bool -> list (list byte) -> bool -> list directive -> Prop :=
| file_end i : file_means locale i [] i []
| file_piece i p s j d ps k ds :
    visible p s -> means locale i s j d -> file_means locale j ps k ds ->
    file_means locale i (p :: ps) k (d :: ds).

(** What a whole file says. *)
Definition file_says (locale : str) (contents : list byte) (ds : list directive) : Prop :=
  exists ps inside, pieces contents ps /\ file_means locale false ps inside ds.
