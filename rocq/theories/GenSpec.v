(** * What the generated code means

    The part of C (C11, execution character set UTF-8, no trigraphs) that the generator
    writes. *)

From Verif Require Import Base CleanSpec Table ParseTableSpec.

Local Open Scope nat_scope.

Definition quote_mark : byte := x22.
Definition back_slash : byte := x5c.
Definition new_line : byte := x0a.

(** 6.4.3: code points a universal character name may have *)
Definition ucn (cp : N) : Prop :=
  (0xA0 <= cp \/ cp = 0x24 \/ cp = 0x40 \/ cp = 0x60)%N /\ ~ (0xD800 <= cp <= 0xDFFF)%N /\ (cp <= 0x10FFFF)%N.

(** [character_name s cp]: [s] is \uXXXX or \UXXXXXXXX. *)
Inductive character_name : str -> N -> Prop :=
| name_short ds cp : length ds = 4 -> digits 16 ds cp -> ucn cp -> character_name (back_slash :: "u"%byte :: ds) cp
| name_long ds cp : length ds = 8 -> digits 16 ds cp -> ucn cp -> character_name (back_slash :: "U"%byte :: ds) cp.

(** 6.4.5: [literal body text]: what stands between the quotes of a string literal, and
    the string it denotes (of the escape sequences only those that the generator uses). *)
Inductive literal : str -> str -> Prop :=
| lit_end : literal [] []
| lit_char c body text :
    c <> quote_mark -> c <> back_slash -> c <> new_line -> literal body text -> literal (c :: body) (c :: text)
| lit_escape c body text :
    c = quote_mark \/ c = back_slash -> literal body text -> literal (back_slash :: c :: body) (c :: text)
| lit_name n cp body text : character_name n cp -> literal body text -> literal (n ++ body) (encode cp ++ text).

(** The same notation in table files, where a backslash is special only before u and U. *)
Inductive meant : str -> str -> Prop :=
| meant_end : meant [] []
| meant_char c s text :
    c <> new_line -> (c = back_slash -> forall d r, s = d :: r -> d <> "u"%byte /\ d <> "U"%byte) ->
    meant s text -> meant (c :: s) (c :: text)
| meant_name n cp s text : character_name n cp -> meant s text -> meant (n ++ s) (encode cp ++ text).

(** ** Declarations *)

Definition ended (s : str) : str := s ++ [new_line].

(** An initialiser of a row. *)
Definition row_line (r : row) (l : str) : Prop :=
  exists k d hex body, r = mkRow k (Some d) /\ digits 16 hex k /\ literal body d /\
    l = ended (bs "    { .key  = 0x" ++ hex ++ bs ", .data = " ++ [quote_mark] ++ body ++ [quote_mark] ++ bs " },").

Definition pointer_to_text (d : option str) (s : str) : Prop :=
  match d with
  | None => s = bs "NULL"
  | Some d => exists body, literal body d /\ s = [quote_mark] ++ body ++ [quote_mark]
  end.

(** [declares name text t size]: [text] defines the table builtin_[name]_table with the
    contents of [t] and a function load_builtin_[name]_table that resizes it to [size]. *)
Definition declares (name text : str) (t : table) (size : N) : Prop :=
  t_hash t = false /\ t_builtin t = true /\ t_used t = length (t_rows t) /\
  exists file rows used maxdata maxkey overwrites dflt sz,
    Forall2 row_line (t_rows t) rows /\
    digits 10 used (N.of_nat (t_used t)) /\ digits 10 maxdata (N.of_nat (t_maxdata t)) /\ digits 16 maxkey (t_maxkey t) /\
    digits 10 overwrites (N.of_nat (t_overwrites t)) /\ digits 10 sz size /\ pointer_to_text (t_default t) dflt /\
    text =
      ended [] ++ ended (bs "/**") ++ ended (bs " * Generated from " ++ file) ++ ended (bs " */") ++ ended [] ++
      ended (bs "static table_row_t builtin_" ++ name ++ bs "_rows[" ++ used ++ bs "] = {") ++
      concat rows ++
      ended (bs "};") ++ ended [] ++
      ended (bs "static table_t builtin_" ++ name ++ bs "_table = {") ++
      ended (bs "    .length              = " ++ used ++ bs ",") ++
      ended (bs "    .used                = " ++ used ++ bs ",") ++
      ended (bs "    .max_data_length     = " ++ maxdata ++ bs ",") ++
      ended (bs "    .max_key             = 0x" ++ maxkey ++ bs ",") ++
      ended (bs "    .hits                = 0,") ++
      ended (bs "    .misses              = 0,") ++
      ended (bs "    .seeks               = 0,") ++
      ended (bs "    .overwrites          = " ++ overwrites ++ bs ",") ++
      ended (bs "    .use_hash            = 0,") ++
      ended (bs "    .builtin             = 1,") ++
      ended (bs "    .rows                = builtin_" ++ name ++ bs "_rows,") ++
      ended (bs "    .default_translation = " ++ dflt ++ bs ",") ++
      ended (bs "};") ++ ended [] ++
      ended (bs "table_t *load_builtin_" ++ name ++ bs "_table(void)") ++
      ended (bs "{") ++
      ended (bs "    return table_resize(&builtin_" ++ name ++ bs "_table, " ++ sz ++ bs ", 1);") ++
      ended (bs "}").

(** The table the program gets by calling the function. *)
Definition loaded (t : table) (size : N) : table := table_resize t (Z.of_N size) true.
