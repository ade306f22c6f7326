(** * Model of src/config_file_lex.l: the scanner of configuration files

    Flex turns the rules into a scanner that takes the longest match of any rule, the
    first rule in the file where several match the same text, and copies a character
    that no rule matches to yyout, which is /dev/null here
    (src/config_file_yacc.y:194).  The scanner is built with flex -i
    (src/Makefile.am:24): letters match in either case. *)

From Verif Require Import Base Stdio.

Local Open Scope nat_scope.

(** src/config_file_lex.l:28-40 *)
Inductive keyword :=
| K_builtin | K_filename | K_ignore | K_iso8859_1 | K_length | K_lower | K_max_length
| K_remove_trailing | K_safe | K_sequence | K_uncgi | K_utf_8 | K_wipeup.

Definition keyword_text (k : keyword) : str :=
  match k with
  | K_builtin => bs "builtin"
  | K_filename => bs "filename"
  | K_ignore => bs "ignore"
  | K_iso8859_1 => bs "iso8859_1"
  | K_length => bs "length"
  | K_lower => bs "lower"
  | K_max_length => bs "max_length"
  | K_remove_trailing => bs "remove_trailing"
  | K_safe => bs "safe"
  | K_sequence => bs "sequence"
  | K_uncgi => bs "uncgi"
  | K_utf_8 => bs "utf_8"
  | K_wipeup => bs "wipeup"
  end.

Inductive rule :=
| R_blank | R_comment | R_newline | R_key (k : keyword) | R_open | R_close | R_qstring | R_id | R_number | R_eol.

(** The rules in the order of the file. *)
Definition rules : list rule :=
  [R_blank; R_comment; R_newline;
   R_key K_builtin; R_key K_filename; R_key K_ignore; R_key K_iso8859_1; R_key K_length; R_key K_lower;
   R_key K_max_length; R_key K_remove_trailing; R_key K_safe; R_key K_sequence; R_key K_uncgi; R_key K_utf_8;
   R_key K_wipeup;
   R_open; R_close; R_qstring; R_id; R_number; R_eol].

Definition is_blank (c : byte) : bool := beq c x09 || beq c x20.
Definition is_letter (c : byte) : bool :=
  ((65 <=? bN c) && (bN c <=? 90) || (97 <=? bN c) && (bN c <=? 122))%N.
Definition is_digit (c : byte) : bool := ((48 <=? bN c) && (bN c <=? 57))%N.
Definition is_word (c : byte) : bool := is_letter c || is_digit c || beq c "_".
Definition quote : byte := x22.

(** Length of the longest prefix of bytes that satisfy [p]. *)
Definition run (p : byte -> bool) (s : str) : nat := length (fst (scan_until (fun c => negb (p c)) s)).

(** Length of the longest prefix of the input that the rule matches. *)
Definition match_rule (r : rule) (input : str) : option nat :=
  match r, input with
  | R_blank, _ => match run is_blank input with O => None | n => Some n end
  | R_comment, c :: rest => if beq c "#" then Some (S (run (fun c => negb (beq c newline)) rest)) else None
  | R_newline, c :: _ => if beq c newline then Some 1 else None
  | R_key k, _ =>
    if strncaseeq (length (keyword_text k)) input (keyword_text k) then Some (length (keyword_text k)) else None
  | R_open, c :: _ => if beq c "{" then Some 1 else None
  | R_close, c :: _ => if beq c "}" then Some 1 else None
  | R_qstring, c :: rest =>
    if beq c quote then
      let n := run (fun c => negb (beq c quote) && negb (beq c newline)) rest in
      if n <? length rest then Some (n + 2) else None
    else None
  | R_id, c :: rest => if is_letter c then Some (S (run is_word rest)) else None
  | R_number, _ => match run is_digit input with O => None | n => Some n end
  | R_eol, c :: _ => if beq c ";" then Some 1 else None
  | _, [] => None
  end.

(** The longest match; the first of several. *)
Fixpoint best_match (rs : list rule) (input : str) (best : option (rule * nat)) : option (rule * nat) :=
  match rs with
  | [] => best
  | r :: rest =>
    let best' := match match_rule r input, best with
                 | Some n, None => Some (r, n)
                 | Some n, Some (_, m) => if m <? n then Some (r, n) else best
                 | None, _ => best
                 end in
    best_match rest input best'
  end.

Inductive token :=
| T_key (k : keyword) | T_open | T_close | T_eol | T_qstring (s : str) | T_id (s : str) | T_number (n : Z).

(** What yylex prints (on stdout) and returns; None for the rules without a token. *)
Inductive lexed := Lexed (printed : str) (t : option token).

Definition unterminated : str := bs "Unterminated character string" ++ [newline].

(** src/config_file_lex.l:45-54: [text] is yytext.  strdup copies up to the first NUL;
    index yyleng - 2 is that of the last byte of yytext + 1. *)
Definition lex_qstring (text : str) : res lexed :=
  let body := tl text in
  let string := cstr body in
  let last := length text - 2 in
  if length string <? last then UB ReadPastEnd
  else if beq (nth last string NUL) quote then Ok (Lexed [] (Some (T_qstring (firstn last string))))
  else Ok (Lexed unterminated (Some (T_qstring string))).

(** atoi: (int) strtol *)
Definition atoi (s : str) : Z :=
  let '(v, _, _) := scan_digits 10 0 s in to_int (Z.of_N v).

Definition lex_action (r : rule) (text : str) : res lexed :=
  match r with
  | R_blank | R_comment | R_newline => Ok (Lexed [] None)
  | R_key k => Ok (Lexed [] (Some (T_key k)))
  | R_open => Ok (Lexed [] (Some T_open))
  | R_close => Ok (Lexed [] (Some T_close))
  | R_qstring => lex_qstring text
  | R_id => Ok (Lexed [] (Some (T_id text)))
  | R_number => Ok (Lexed [] (Some (T_number (atoi text))))
  | R_eol => Ok (Lexed [] (Some T_eol))
  end.

(** One round of the scanner on a non-empty input: what it does and the rest. *)
Definition lex_round (input : str) : res (lexed * str) :=
  match best_match rules input None with
  | Some (r, n) => do l <- lex_action r (firstn n input); Ok (l, skipn n input)
  | None => Ok (Lexed [] None, tl input)
  end.
