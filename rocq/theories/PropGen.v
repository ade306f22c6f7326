(** * Properties of the generator of built-in tables (C49, C60, C61) *)

From Coq Require Import Sorting.Sorted.

From Verif Require Import Base BaseFacts CleanSpec Table TableSpec TableProofs BuiltinTables ParseTable ParseTableSpec ParseTableProofs
  TableFiles Options GenBuiltin GenSpec GenProofs BuiltinSource GenShipped.

Local Open Scope nat_scope.

Definition file_lines (ls : list string) : list byte := concat (map (fun l => bs l ++ [new_line]) ls).

(** ** C49 *)

(** The escaped text is written inside its buffer and is, between quotes, a C string
    literal for what the text says. *)
Theorem C49_escaping :
  forall s d, meant s d -> nonul s -> (N.of_nat (length s) < 2 ^ 62)%N ->
    exists body, escape_string s = Ok body /\ literal body d.
Proof. intros s d M N L. exists (escaped s). split; [now apply escape_ok|now apply escape_meant]. Qed.
Print Assumptions C49_escaping.

(** A text without newline and without \u or \U says itself. *)
Theorem C49_plain_text :
  forall s, nonul s -> (N.of_nat (length s) < 2 ^ 62)%N -> ~ In new_line s ->
    (forall a d r, s = a ++ back_slash :: d :: r -> d <> "u"%byte /\ d <> "U"%byte) ->
    exists body, escape_string s = Ok body /\ literal body s.
Proof. intros s N L NL B. apply C49_escaping; auto. now apply meant_plain. Qed.
Print Assumptions C49_plain_text.

(** Whatever the text is, the buffer is large enough. *)
Theorem C49_buffer :
  forall s, nonul s -> (N.of_nat (length s) < 2 ^ 62)%N -> exists body, escape_string s = Ok body /\ length body <= 2 * length s.
Proof. intros s N L. exists (escaped s). split; [now apply escape_ok|apply escape_length]. Qed.
Print Assumptions C49_buffer.

Example C49_escaping_example :
  escape_string (bs "a""b\c\u00e9\") = Ok (bs "a\""b\\c\u00e9\\") /\
  meant (bs "a""b\c\u00e9\") (bs "a""b\c" ++ [xc3; xa9; back_slash]).
Proof. split; [vm_compute; reflexivity|]. apply (denote_sound 20). vm_compute. reflexivity. Qed.

(** The generated code defines a table that answers every look-up with what the text
    of the table file says, and its loader makes room for more than all of it. *)
Theorem C49_generated_code :
  forall locale file contents hold,
    parse_table locale contents = Ok (Some hold) -> (t_maxkey hold + 1 < 2 ^ 31)%N ->
    (forall k d, table_get hold k = Some d -> exists d', meant d d') -> (forall d, t_default hold = Some d -> literal d d) ->
    exists text t size,
      generate_loader locale file contents = Ok text /\ declares (bs "NEW") text t size /\
      (forall k d', table_get (loaded t size) k = Some d' <-> exists d, table_get hold k = Some d /\ meant d d') /\
      t_default (loaded t size) = t_default hold /\
      (N.of_nat (t_used t) < size)%N /\
      StronglySorted N.lt (map r_key (t_rows t)).
Proof. exact generated_code. Qed.
Print Assumptions C49_generated_code.

(** Undefined behaviour has two causes only (both occur, see C61). *)
Theorem C49_defined :
  forall locale file contents,
    (exists text, generate_loader locale file contents = Ok text) \/
    (parse_table locale contents = Ok None /\ generate_loader locale file contents = UB NullDeref) \/
    (exists hold, parse_table locale contents = Ok (Some hold) /\ (2 ^ 31 <= t_maxkey hold + 1)%N /\
                  generate_loader locale file contents = UB IntOverflow).
Proof. exact generator_defined. Qed.
Print Assumptions C49_defined.

(** A text has one meaning. *)
Theorem C49_one_meaning : forall s d d', meant s d -> meant s d' -> d = d'.
Proof. intros s d d' M M'. exact (meant_unique s d M d' M'). Qed.
Print Assumptions C49_one_meaning.

Theorem C49_loader_size : forall used, (used < loader_size used)%N /\ (256 | loader_size used)%N.
Proof. exact loader_size_more. Qed.
Print Assumptions C49_loader_size.

Example C49_generated_example :
  generate_loader (bs "C") (bs "t.tbl") (file_lines ["default _"; "start"; "0x42 '""'"; "65 \u00e4"; "0x42 b"; "end"]%string) =
  Ok (file_lines
    [""; "/**"; " * Generated from t.tbl"; " */"; "";
     "static table_row_t builtin_NEW_rows[2] = {";
     "    { .key  = 0x0041, .data = ""\u00e4"" },";
     "    { .key  = 0x0042, .data = ""b"" },";
     "};"; "";
     "static table_t builtin_NEW_table = {";
     "    .length              = 2,";
     "    .used                = 2,";
     "    .max_data_length     = 6,";
     "    .max_key             = 0x0042,";
     "    .hits                = 0,";
     "    .misses              = 0,";
     "    .seeks               = 0,";
     "    .overwrites          = 1,";
     "    .use_hash            = 0,";
     "    .builtin             = 1,";
     "    .rows                = builtin_NEW_rows,";
     "    .default_translation = ""_"",";
     "};"; "";
     "table_t *load_builtin_NEW_table(void)";
     "{";
     "    return table_resize(&builtin_NEW_table, 256, 1);";
     "}"]%string).
Proof. vm_compute. reflexivity. Qed.

(** ** C60: the shipped src/builtin_table.c *)

(** The file is its template followed by what the generator makes, in any locale, of the
    four table files of the distribution, and these pieces define the tables that the
    program has built in. *)
Theorem C60_shipped_source :
  forall locale, exists a b c d,
    builtin_table_c = builtin_table_c_in ++ a ++ b ++ c ++ d /\
    (section locale (bs "safe") safe_tbl = Ok a /\ declares (bs "safe") a builtin_safe_table 256) /\
    (section locale (bs "iso8859_1") iso8859_1_tbl = Ok b /\ declares (bs "iso8859_1") b builtin_iso8859_1_table 256) /\
    (section locale (bs "unicode") unicode_tbl = Ok c /\ declares (bs "unicode") c builtin_unicode_table 256) /\
    (section locale (bs "cp1252") cp1252_tbl = Ok d /\ declares (bs "cp1252") d builtin_cp1252_table 256).
Proof. exact shipped_source. Qed.
Print Assumptions C60_shipped_source.

(** ** C61: where the generator goes wrong *)

(** The default translation is not escaped: one that is a backslash makes the closing
    quote part of the literal. *)
Theorem C61_default_refuted :
  exists locale file contents hold d before after,
    parse_table locale contents = Ok (Some hold) /\ t_default hold = Some d /\ meant d d /\
    generate_loader locale file contents = Ok (before ++ bs ".default_translation = " ++ [quote_mark] ++ d ++ [quote_mark] ++ after) /\
    forall x, ~ literal d x.
Proof.
  exists [], [], (file_lines ["default \"]%string).
  destruct (parse_table [] (file_lines ["default \"]%string)) as [[hold|]| |] eqn:P; try (vm_compute in P; discriminate).
  exists hold, [back_slash].
  exists (file_lines
    [""; "/**"; " * Generated from "; " */"; "";
     "static table_row_t builtin_NEW_rows[0] = {";
     "};"; "";
     "static table_t builtin_NEW_table = {";
     "    .length              = 0,";
     "    .used                = 0,";
     "    .max_data_length     = 0,";
     "    .max_key             = 0x0000,";
     "    .hits                = 0,";
     "    .misses              = 0,";
     "    .seeks               = 0,";
     "    .overwrites          = 0,";
     "    .use_hash            = 0,";
     "    .builtin             = 1,";
     "    .rows                = builtin_NEW_rows,"]%string ++ bs "    ").
  exists (file_lines [","; "};"; ""; "table_t *load_builtin_NEW_table(void)"; "{"; "    return table_resize(&builtin_NEW_table, 256, 1);"; "}"]%string).
  split; [reflexivity|]. split; [|split; [|split]].
  - assert (Q : match parse_table [] (file_lines ["default \"]%string) with Ok (Some h) => t_default h | _ => None end = Some [back_slash]) by (vm_compute; reflexivity).
    rewrite P in Q. exact Q.
  - apply (denote_sound 3). reflexivity.
  - vm_compute. reflexivity.
  - intros x L. inversion L; subst; try easy. match goal with C : character_name _ _ |- _ => destruct C; discriminate end.
Qed.
Print Assumptions C61_default_refuted.

(** A table file that is given up (here for an entry for the code 0) leads to the use of a
    null pointer. *)
Theorem C61_rejected_file_refuted :
  exists contents, forall locale file, parse_table locale contents = Ok None /\ generate_loader locale file contents = UB NullDeref.
Proof. exists (file_lines ["start"; "0 a"; "end"]%string). intros. split; vm_compute; reflexivity. Qed.
Print Assumptions C61_rejected_file_refuted.

(** For the code 2147483647 the number of rows is computed in an overflowing addition. *)
Theorem C61_largest_code_refuted :
  exists contents, forall locale file, generate_loader locale file contents = UB IntOverflow.
Proof. exists (file_lines ["start"; "0x7fffffff a"; "end"]%string). intros. vm_compute. reflexivity. Qed.
Print Assumptions C61_largest_code_refuted.

(** A quote that is not closed makes the newline part of the text, and the escaped text is
    no literal. *)
Theorem C61_newline_refuted :
  exists contents locale hold d body,
    parse_table locale contents = Ok (Some hold) /\ table_get hold 65 = Some d /\ escape_string d = Ok body /\ forall x, ~ literal body x.
Proof.
  exists (file_lines ["start"; "65 ""a"; "end"]%string), [].
  destruct (parse_table [] (file_lines ["start"; "65 ""a"; "end"]%string)) as [[hold|]| |] eqn:P; try (vm_compute in P; discriminate).
  exists hold, (bs "a" ++ [new_line]), (bs "a" ++ [new_line]). split; [reflexivity|]. split; [|split; [vm_compute; reflexivity|]].
  - assert (Q : match parse_table [] (file_lines ["start"; "65 ""a"; "end"]%string) with Ok (Some h) => table_get h 65 | _ => None end = Some (bs "a" ++ [new_line])) by (vm_compute; reflexivity).
    rewrite P in Q. exact Q.
  - intros x L. inversion L; subst.
    + match goal with L : literal [_] _ |- _ => inversion L; subst end; [easy|].
      match goal with C : character_name _ _ |- _ => destruct C; discriminate end.
    + match goal with C : character_name _ _ |- _ => destruct C; discriminate end.
Qed.
Print Assumptions C61_newline_refuted.

(** The shell script replaces NEW in the texts, too. *)
Theorem C61_word_replaced_refuted :
  exists contents name locale hold text before after,
    parse_table locale contents = Ok (Some hold) /\ table_get hold 65 = Some (bs "NEW") /\
    section locale name contents = Ok text /\ text = before ++ bs "{ .key  = 0x0041, .data = " ++ [quote_mark] ++ name ++ [quote_mark] ++ after /\
    name <> bs "NEW".
Proof.
  exists (file_lines ["start"; "65 NEW"; "end"]%string), (bs "x"), [].
  destruct (parse_table [] (file_lines ["start"; "65 NEW"; "end"]%string)) as [[hold|]| |] eqn:P; try (vm_compute in P; discriminate).
  exists hold. destruct (section [] (bs "x") (file_lines ["start"; "65 NEW"; "end"]%string)) as [text| |] eqn:E; try (vm_compute in E; discriminate).
  exists text, (firstn 79 text), (skipn 108 text). split; [reflexivity|]. split; [|split; [reflexivity|split; [|discriminate]]].
  - assert (Q : match parse_table [] (file_lines ["start"; "65 NEW"; "end"]%string) with Ok (Some h) => table_get h 65 | _ => None end = Some (bs "NEW")) by (vm_compute; reflexivity).
    rewrite P in Q. exact Q.
  - vm_compute in E. injection E as <-. vm_compute. reflexivity.
Qed.
Print Assumptions C61_word_replaced_refuted.
