(** * What a table file is supposed to mean

    After man/detox.tbl.5: a file is a sequence of lines; every line says something or
    nothing. *)

From Verif Require Import Base Stdio ParseTable.

(** ** Characters *)

(** White space within a line. *)
Definition blank (c : byte) : Prop := In c [x20; x09; x0b; x0c; x0d].
Definition blanks (s : str) : Prop := Forall blank s.

(** A word: neither empty nor containing white space. *)
Definition word (w : str) : Prop := w <> [] /\ Forall (fun c => ~ blank c /\ c <> newline) w.

(** Equality of letters up to case. *)
Definition same_letter (a b : byte) : Prop :=
  a = b \/ exists n, (n < 26)%N /\ ((bN a = 65 + n /\ bN b = 97 + n) \/ (bN a = 97 + n /\ bN b = 65 + n))%N.
Definition same_text (a b : str) : Prop := Forall2 same_letter a b.

(** [w] begins with the letters of [k]. *)
Definition begins_with (k : str) (w : str) : Prop := exists p q, w = p ++ q /\ same_text p k.

(** ** Numbers *)

(** [c] is the digit with value [d]. *)
Definition digit (c : byte) (d : N) : Prop :=
  nth_error (bs "0123456789abcdef") (N.to_nat d) = Some c \/
  nth_error (bs "0123456789ABCDEF") (N.to_nat d) = Some c.

Definition positional (base : N) (ds : list N) : N := fold_left (fun v d => base * v + d)%N ds 0%N.

(** [digits base s v]: the digits [s] of the given base denote [v]. *)
Definition digits (base : N) (s : str) (v : N) : Prop :=
  exists ds, Forall2 digit s ds /\ Forall (fun d => d < base)%N ds /\ v = positional base ds.

(** Decimal (1), hexadecimal (0x01) or octal (01). *)
Inductive numeral : str -> N -> Prop :=
| num_decimal c s v : digits 10 (c :: s) v -> c <> "0"%byte -> numeral (c :: s) v
| num_hex x s v : x = "x"%byte \/ x = "X"%byte -> s <> [] -> digits 16 s v -> numeral ("0"%byte :: x :: s) v
| num_octal s v : digits 8 s v -> numeral ("0"%byte :: s) v.

(** What strtol makes of a number: the nearest long.  And a conversion to int: the number
    that differs from it by a multiple of 2^32. *)
Definition as_long (z l : Z) : Prop :=
  (z < - 2 ^ 63 /\ l = - 2 ^ 63 \/ - 2 ^ 63 <= z < 2 ^ 63 /\ l = z \/ 2 ^ 63 <= z /\ l = 2 ^ 63 - 1)%Z.
Definition as_int (z n : Z) : Prop :=
  exists l k, as_long z l /\ (- 2 ^ 31 <= n < 2 ^ 31 /\ l = n + k * 2 ^ 32)%Z.

(** ** Texts *)

(** [token text s]: [s] is [text], as it stands or in quotes of either kind, and anything
    that may follow on the line. *)
Inductive token (text : str) : str -> Prop :=
| token_bare tail :
    word text -> (forall c r, text = c :: r -> c <> double_quote /\ c <> single_quote) ->
    tail = [] \/ (exists c r, tail = c :: r /\ blank c) ->
    token text (text ++ tail)
| token_double tail : ~ In double_quote text -> token text (double_quote :: text ++ double_quote :: tail)
| token_single tail : ~ In single_quote text -> token text (single_quote :: text ++ single_quote :: tail).

(** ** Lines *)

Inductive directive :=
| Entry (code : N) (text : str)
| Default (text : option str)
| Nothing.

(** A line (without its newline) with a number and a text. *)
Definition entry_line (code : N) (text line : str) : Prop :=
  exists a num b tok, line = a ++ num ++ b ++ tok /\
    blanks a /\ numeral num code /\ (code < 2 ^ 31)%N /\ blanks b /\ b <> [] /\ token text tok.

(** A line with a key word and nothing else, and one with a key word and a text. *)
Definition bare_line (w line : str) : Prop :=
  exists a b, line = a ++ w ++ b /\ blanks a /\ word w /\ blanks b.
Definition text_line (w text line : str) : Prop :=
  exists a b tok, line = a ++ w ++ b ++ tok /\ blanks a /\ word w /\ blanks b /\ b <> [] /\ token text tok.
(** ... or anything. *)
Definition first_word (w line : str) : Prop :=
  exists a b, line = a ++ w ++ b /\ blanks a /\ word w /\ (b = [] \/ exists c r, b = c :: r /\ blank c).

(** What an empty pair of quotes leaves behind. *)
Definition or_word (text w : str) : str := match text with [] => w | _ => text end.

(** [says locale inside line inside' d]: outside ([false]) or inside ([true]) a block,
    the line says [d], after which we are [inside'].  An empty text on a start or
    default line is not in the documentation; see C43 for what it means. *)
Inductive says (locale : str) : bool -> str -> bool -> directive -> Prop :=
| says_comment i r : says locale i ("#"%byte :: r) i Nothing
| says_blank i l : blanks l -> says locale i l i Nothing
| says_start w l : bare_line w l -> begins_with (bs "start") w -> says locale false l true Nothing
| says_start_yes w lang l :
    text_line w lang l -> begins_with (bs "start") w -> begins_with (or_word lang w) locale -> says locale false l true Nothing
| says_start_no w lang l :
    text_line w lang l -> begins_with (bs "start") w -> ~ begins_with (or_word lang w) locale -> says locale false l false Nothing
| says_no_default w l : bare_line w l -> begins_with (bs "default") w -> says locale false l false (Default None)
| says_default w text l :
    text_line w text l -> begins_with (bs "default") w -> says locale false l false (Default (Some (or_word text w)))
| says_outside w l :
    first_word w l -> ~ begins_with (bs "start") w -> ~ begins_with (bs "default") w -> says locale false l false Nothing
| says_entry code text l : entry_line code text l -> says locale true l true (Entry code text)
| says_number_only num code l : bare_line num l -> numeral num code -> (code < 2 ^ 31)%N -> says locale true l true Nothing
| says_end w l : first_word w l -> same_text w (bs "end") -> says locale true l false Nothing
| says_inside c w l :
    first_word (c :: w) l -> ~ same_text (c :: w) (bs "end") ->
    ~ In c (bs "0123456789+-") -> says locale true l true Nothing.

(** ** Files *)

Inductive lines_say (locale : str) : bool -> list str -> bool -> list directive -> Prop :=
| lines_nil i : lines_say locale i [] i []
| lines_cons i l j d ls k ds :
    says locale i l j d -> lines_say locale j ls k ds -> lines_say locale i (l :: ls) k (d :: ds).

(** A file with these lines; the last one may lack its newline.  No line exceeds the
    1023 bytes that are read at once. *)
Definition file_of (ls : list str) (contents : list byte) : Prop :=
  Forall (fun l => nonul l /\ ~ In newline l /\ (length l <= 1022)%nat) ls /\
  (contents = concat (map (fun l => l ++ [newline]) ls) \/
   exists ls' l, ls = ls' ++ [l] /\ l <> [] /\ contents = concat (map (fun l => l ++ [newline]) ls') ++ l).

Definition entries (ds : list directive) : list (N * str) :=
  flat_map (fun d => match d with Entry c t => [(c, t)] | _ => [] end) ds.

(** The last default. *)
Fixpoint default_of (dflt : option str) (ds : list directive) : option str :=
  match ds with
  | [] => dflt
  | Default d :: r => default_of d r
  | _ :: r => default_of dflt r
  end.

(** The number of entries there is room for: one per six bytes of the file, 500 at
    least. *)
Definition room (contents : list byte) : nat := Nat.max 500 (length contents / 6).
