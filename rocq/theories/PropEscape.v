(** * Properties of escape-utf-8 (C70-C73) *)

From Verif Require Import Base BaseFacts Table TableSpec TableProofs CleanSpec Utf8Spec Prog ProgFacts Inline InlineSpec
  ParseTable ParseTableSpec TableFiles PropParseTable Options GenBuiltin GenSpec GenProofs GenShipped
  Escape EscapeSpec EscapeProofs EscapeProofs2 EscapeProofs3.

Local Open Scope nat_scope.

(** ** C70: what is written *)

(** Every character of every line is written the way [escapes] says, whatever the
    length of the lines. *)
Theorem C70_lines :
  forall pf ls last, Forall text_line ls -> text_line last ->
    exists rs rlast,
      Forall2 escaped_text ls rs /\ escaped_text last rlast /\
      escape_writes (escape_main pf) (concat (map (fun l => flat_map encode l ++ [new_line]) ls) ++ flat_map encode last)
        (concat (map (fun r => r ++ [new_line]) rs) ++ rlast).
Proof.
  intros pf ls last F L.
  exists (map (fun l => escape_all (flat_map encode l)) ls), (escape_all (flat_map encode last)). splits.
  - clear L. induction F as [|l ls T F IH]; [constructor|]. cbn [map]. constructor; [|exact IH].
    apply escape_all_text. now apply text_line_bytes.
  - apply escape_all_text. now apply text_line_bytes.
  - pose proof (escape_lines pf ls last F L) as H. rewrite map_map. exact H.
Qed.
Print Assumptions C70_lines.

(** And there is one way to write a text. *)
Theorem C70_one_way : forall cps out out', escaped_text cps out -> escaped_text cps out' -> out = out'.
Proof. exact escaped_fun. Qed.
Print Assumptions C70_one_way.

(** The table has a text for every character but NUL, and for no other code; none of
    them is truncated by the buffer of 16 bytes. *)
Theorem C70_table :
  (forall cp, (0 < cp < 0x110000)%N -> exists text, table_get generate_c_escape_table cp = Some text /\ escapes cp text) /\
  (forall cp, (0x110000 <= cp)%N -> table_get generate_c_escape_table cp = None) /\
  t_default generate_c_escape_table = None.
Proof.
  destruct generated_table as (_ & _ & D & G). split; [|split; [|exact D]].
  - intros cp H. rewrite G. apply escape_entry_escapes. lia.
  - intros cp H. rewrite G. unfold escape_entry.
    destruct (N.eqb_spec cp 0); [lia|]. destruct (N.ltb_spec cp 0x80); [lia|]. destruct (N.ltb_spec cp 0x10000); [lia|].
    destruct (N.ltb_spec cp 0x110000); [lia|reflexivity].
Qed.
Print Assumptions C70_table.

Ltac in_digits := repeat (apply Forall_cons; [vm_compute; tauto|]); apply Forall_nil.
Ltac no_simple := let c := fresh in let H := fresh in intros [c H]; unfold simple_escape in H; cbn [In] in H;
  repeat (destruct H as [H|H]; [discriminate H|]); destruct H.

(** H, tab, quotation mark, e with acute, SOH, grinning face *)
Example C70_example_text :
  escaped_text [0x48; 9; 0x22; 0xE9; 1; 0x1F600]%N
    (bs "H\t\" ++ [quote_mark] ++ bs "\" ++ bs "u00E9" ++ bs "\x01" ++ bs "\" ++ bs "U0001F600").
Proof.
  exists [bs "H"; bs "\t"; bs "\" ++ [quote_mark]; bs "\" ++ bs "u00E9"; bs "\x01"; bs "\" ++ bs "U0001F600"].
  split; [|reflexivity]. repeat apply Forall2_cons; [| | | | | |apply Forall2_nil].
  - apply (es_plain 0x48). split; [lia|no_simple].
  - apply (es_simple 9 "t"%byte). unfold simple_escape. cbn [In]. tauto.
  - apply (es_simple 0x22 x22). unfold simple_escape. cbn [In]. tauto.
  - apply (es_short 0xE9 (bs "00E9")); [lia|reflexivity|in_digits|]. exact (hex_upper_digits 4 0xE9).
  - apply (es_hex 1 (bs "01")); [split; [lia|no_simple]|reflexivity|in_digits|]. exact (hex_upper_digits 2 1).
  - apply (es_long 0x1F600 (bs "0001F600")); [lia|reflexivity|in_digits|]. exact (hex_upper_digits 8 0x1F600).
Qed.

Example C70_example :
  forall pf, escape_writes (escape_main pf) ([x48; x09; x22; xc3; xa9; x01; xf0; x9f; x98; x80]%byte ++ [new_line])
    (bs "H\t\" ++ [quote_mark] ++ bs "\" ++ bs "u00E9" ++ bs "\x01" ++ bs "\" ++ bs "U0001F600" ++ [new_line]).
Proof.
  intros pf.
  destruct (C70_lines pf [[0x48; 9; 0x22; 0xE9; 1; 0x1F600]%N] []) as (rs & rlast & F & L & W).
  - apply Forall_cons; [|apply Forall_nil]. repeat (apply Forall_cons; [unfold scalar; lia|]). apply Forall_nil.
  - apply Forall_nil.
  - inversion F as [|? r ? ? E F']; subst. inversion F'; subst.
    assert (rlast = []) as -> by (destruct L as (ts & Ft & ->); inversion Ft; reflexivity).
    rewrite (C70_one_way _ _ _ E C70_example_text) in W.
    replace (_ ++ [new_line]) with (concat (map (fun l => flat_map encode l ++ [new_line]) [[0x48; 9; 0x22; 0xE9; 1; 0x1F600]%N]) ++ flat_map encode [])
      by reflexivity.
    exact W.
Qed.

(** ** C71: any bytes *)

(** Whatever standard input holds, text or not: standard output gets printable ASCII
    characters and newlines only, nothing is done but reading and printing, the exit
    status is 0, and the one thing that can go wrong is the access in front of the buffer
    (C32). *)
Theorem C71_any_input :
  forall pf tr p', trace_of (escape_main pf) tr p' ->
    Forall (fun c => printable_ascii c \/ c = new_line) (stdout_text tr) /\
    match p' with
    | Ret code => code = 0%N
    | Stop w => w = StopUB BufferUnderread
    | Call c _ => c = ReadStream None \/ exists out text, c = Print out text
    end.
Proof. exact escape_any_input. Qed.
Print Assumptions C71_any_input.

(** Different texts are written differently: the text can be recovered. *)
Theorem C71_recoverable :
  forall ls last rs rlast ls' last' rs' rlast',
    Forall2 escaped_text ls rs -> escaped_text last rlast -> Forall2 escaped_text ls' rs' -> escaped_text last' rlast' ->
    concat (map (fun r => r ++ [new_line]) rs) ++ rlast = concat (map (fun r => r ++ [new_line]) rs') ++ rlast' ->
    ls = ls' /\ last = last'.
Proof. exact output_determines. Qed.
Print Assumptions C71_recoverable.

(** A backslash and a t are not taken for a tab. *)
Example C71_example : forall out, escaped_text [0x5C; 0x74]%N out -> ~ escaped_text [9]%N out.
Proof. intros out H H'. pose proof (escaped_injective _ _ _ H H'). discriminate. Qed.

(** ** C72: use in a C string *)

(** The output, between quotation marks, is a string literal for the text exactly when
    there is no C1 control character in the text and no character escaped with \x stands
    before a hexadecimal digit. *)
Theorem C72_string_literal :
  forall cps out, Forall scalar cps -> escaped_text cps out ->
    (string_literal out (flat_map encode cps) <-> Forall (fun cp => ~ c1 cp) cps /\ ~ runs_on cps).
Proof.
  intros cps out S (ts & F & ->). split.
  - now apply literal_only_if.
  - intros [C R]. now apply literal_if.
Qed.
Print Assumptions C72_string_literal.

(** The output is not always "safe to use in a C string" (src/escape_utf_8.c:132): SOH
    and an a become \x01a, which denotes the single byte 1A. *)
Theorem C72_runs_on_refuted :
  exists cps out, Forall scalar cps /\ escaped_text cps out /\
    string_literal out [x1a] /\ ~ string_literal out (flat_map encode cps).
Proof.
  exists [1; 0x61]%N, (bs "\x01a").
  assert (E : escaped_text [1; 0x61]%N (bs "\x01a")).
  { exists [bs "\x01"; bs "a"]. split; [|reflexivity]. apply Forall2_cons; [|apply Forall2_cons; [|apply Forall2_nil]].
    - apply (es_hex 1 (bs "01")); [split; [lia|no_simple]|reflexivity|in_digits|]. exact (hex_upper_digits 2 1).
    - apply (es_plain 0x61). split; [lia|no_simple]. }
  assert (Sc : Forall scalar [1; 0x61]%N) by (repeat (apply Forall_cons; [unfold scalar; lia|]); apply Forall_nil).
  assert (D : digits 16 (bs "01a") 0x1A).
  { exists [0; 1; 10]%N. splits; [|repeat constructor|reflexivity].
    repeat (apply Forall2_cons; [left; reflexivity|]). apply Forall2_nil. }
  splits; auto.
  - apply (sl_hex (bs "01a") 0x1A [] []); auto; [reflexivity|discriminate|constructor].
  - rewrite C72_string_literal by assumption. intros [_ R]. apply R.
    exists [], 1%N, 0x61%N, []. splits; [reflexivity|split; [lia|no_simple]|reflexivity|].
    exists 10%N. left. reflexivity.
Qed.
Print Assumptions C72_runs_on_refuted.

(** A C1 control character is given a universal character name that the language rules
    out. *)
Theorem C72_c1_refuted :
  exists cps out, Forall scalar cps /\ escaped_text cps out /\ ~ string_literal out (flat_map encode cps).
Proof.
  exists [0x85]%N, (bs "\" ++ bs "u0085").
  assert (E : escaped_text [0x85]%N (bs "\" ++ bs "u0085")).
  { exists [bs "\" ++ bs "u0085"]. split; [|reflexivity]. apply Forall2_cons; [|apply Forall2_nil].
    apply (es_short 0x85 (bs "0085")); [lia|reflexivity|in_digits|]. exact (hex_upper_digits 4 0x85). }
  assert (Sc : Forall scalar [0x85]%N) by (repeat (apply Forall_cons; [unfold scalar; lia|]); apply Forall_nil).
  splits; auto. rewrite C72_string_literal by assumption. intros [C _]. inversion C as [|? ? X _]; subst. apply X. unfold c1. lia.
Qed.
Print Assumptions C72_c1_refuted.

(** When there is neither, it is. *)
Example C72_example : string_literal (bs "\x01\" ++ bs "u00E9g") (flat_map encode [1; 0xE9; 0x67]%N).
Proof.
  apply C72_string_literal.
  - repeat (apply Forall_cons; [unfold scalar; lia|]). apply Forall_nil.
  - exists [bs "\x01"; bs "\" ++ bs "u00E9"; bs "g"]. split; [|reflexivity]. repeat apply Forall2_cons; [| | |apply Forall2_nil].
    + apply (es_hex 1 (bs "01")); [split; [lia|no_simple]|reflexivity|in_digits|]. exact (hex_upper_digits 2 1).
    + apply (es_short 0xE9 (bs "00E9")); [lia|reflexivity|in_digits|]. exact (hex_upper_digits 4 0xE9).
    + apply (es_plain 0x67). split; [lia|no_simple].
  - split.
    + repeat (apply Forall_cons; [unfold c1; lia|]). apply Forall_nil.
    + intros (a & x & d & b & E & H & L & _). apply hex_escaped_ascii in H.
      destruct a as [|? [|? [|? [|? ?]]]]; try discriminate E; injection E; intros; subst; lia.
Qed.

(** ** C73: the embedded table *)

(** The table in src/escape_utf_8.c is the one that the generator makes of
    table/c_escape.tbl and the one that is obtained by loading the file, in every locale. *)
Theorem C73_embedded_table :
  agrees c_escape_tbl builtin_c_escape_table /\
  forall locale, exists text, section locale (bs "c_escape") c_escape_tbl = Ok text /\
    declares (bs "c_escape") text builtin_c_escape_table 256.
Proof.
  split.
  - apply agrees_by; try apply wf_c_escape; try (vm_compute; reflexivity).
  - intros locale.
    assert (X : exists text, section_check (bs "c_escape") c_escape_tbl = Some (text, builtin_c_escape_table)) by
      (eexists; vm_compute; reflexivity).
    destruct X as (text & X). apply section_check_sound in X. destruct X as [E D]. exists text. split; [|exact D].
    rewrite <- E. vm_compute. reflexivity.
Qed.
Print Assumptions C73_embedded_table.
