(** * What escape-utf-8 is supposed to write

    src/escape_utf_8.c:128-133: "escapes everything so that a) all Unicode is obvious, and
    b) the output is safe to use in a C string". *)

From Verif Require Import Base CleanSpec ParseTableSpec GenSpec Prog InlineSpec.

Local Open Scope N_scope.

(** ** String literals *)

(** C11 6.4.4.4: simple escape sequences *)
Definition simple_escape (c : byte) (value : N) : Prop :=
  In (c, value)
    [(x27, 0x27); (x22, 0x22); ("?"%byte, 0x3F); (x5c, 0x5C); ("a"%byte, 7); ("b"%byte, 8); ("f"%byte, 12);
     ("n"%byte, 10); ("r"%byte, 13); ("t"%byte, 9); ("v"%byte, 11)].

Definition hexadecimal (c : byte) : Prop := exists d, digit c d.
Definition octal (c : byte) : Prop := exists d, digit c d /\ d < 8.

(** C11 6.4.5: [string_literal body text]: the [body] between the quotes of a string
    literal denotes [text].  An escape sequence is as long as it can be. *)
Inductive string_literal : str -> str -> Prop :=
| sl_end : string_literal [] []
| sl_char c body text :
    c <> quote_mark -> c <> back_slash -> c <> new_line -> string_literal body text ->
    string_literal (c :: body) (c :: text)
| sl_simple c v body text :
    simple_escape c v -> string_literal body text -> string_literal (back_slash :: c :: body) (Nb v :: text)
| sl_octal ds v body text :
    digits 8 ds v -> v < 256 -> (1 <= length ds <= 3)%nat ->
    length ds = 3%nat \/ ~ starts_with octal body -> string_literal body text ->
    string_literal (back_slash :: ds ++ body) (Nb v :: text)
| sl_hex ds v body text :
    digits 16 ds v -> v < 256 -> ds <> [] -> ~ starts_with hexadecimal body -> string_literal body text ->
    string_literal (back_slash :: "x"%byte :: ds ++ body) (Nb v :: text)
| sl_name n cp body text :
    character_name n cp -> string_literal body text -> string_literal (n ++ body) (encode cp ++ text).

(** ** Escapes *)

(** Characters that are written as they are. *)
Definition plain (cp : N) : Prop := 0x20 <= cp < 0x7F /\ ~ exists c, simple_escape c cp.

(** Characters that are written with \x. *)
Definition hex_escaped (cp : N) : Prop :=
  (0 < cp < 0x20 \/ cp = 0x7F) /\ ~ exists c, simple_escape c cp.

Definition upper_case (s : str) : Prop := Forall (fun c => In c (bs "0123456789ABCDEF")) s.
Definition lower_case (s : str) : Prop := Forall (fun c => In c (bs "0123456789abcdef")) s.

(** [escapes cp text]: how one character is written. *)
Inductive escapes : N -> str -> Prop :=
| es_plain cp : plain cp -> escapes cp [Nb cp]
| es_simple cp c : simple_escape c cp -> escapes cp [back_slash; c]
| es_hex cp ds :
    hex_escaped cp -> length ds = 2%nat -> lower_case ds -> digits 16 ds cp ->
    escapes cp (back_slash :: "x"%byte :: ds)
| es_short cp ds :
    0x80 <= cp < 0x10000 -> length ds = 4%nat -> upper_case ds -> digits 16 ds cp ->
    escapes cp (back_slash :: "u"%byte :: ds)
| es_long cp ds :
    0x10000 <= cp < 0x110000 -> length ds = 8%nat -> upper_case ds -> digits 16 ds cp ->
    escapes cp (back_slash :: "U"%byte :: ds).

(** A text, character by character. *)
Definition escaped_text (cps : list N) (out : str) : Prop :=
  exists texts, Forall2 escapes cps texts /\ out = concat texts.

(** A character escaped with \x stands before a hexadecimal digit. *)
Definition runs_on (cps : list N) : Prop :=
  exists a x d b, cps = a ++ x :: d :: b /\ hex_escaped x /\ d < 128 /\ hexadecimal (Nb d).

(** The C1 control characters; they have no universal character name (C11 6.4.3). *)
Definition c1 (cp : N) : Prop := 0x80 <= cp < 0xA0.

(** ** The program *)

(** [escape_writes p contents out]: given [contents] on standard input, [p] only prints,
    and when it is done it has written exactly [out] to standard output and the exit
    status is 0; when it is stopped on the way it has written a part of [out]. *)
Definition escape_writes (p : prog N) (contents out : str) : Prop :=
  forall tr p', trace_of p (Ev (ReadStream None) (inl contents) :: tr) p' ->
    (exists more, out = stdout_text tr ++ more) /\
    match p' with
    | Call c _ => exists where_ text, c = Print where_ text
    | _ => p' = Ret 0 /\ stdout_text tr = out
    end.

(** A line of text: characters other than NUL and newline. *)
Definition text_line (cps : list N) : Prop := Forall (fun cp => scalar cp /\ cp <> 0 /\ cp <> 10) cps.

Definition printable_ascii (c : byte) : Prop := 0x20 <= bN c < 0x7F.
