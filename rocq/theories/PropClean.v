(** * Properties of the string filters (C05-C16)

    [nonul s] says that [s] is the contents of a C string; [in_memory s] bounds its
    length by 2^60 bytes, so that buffer sizes do not wrap around. *)

From Verif Require Import Base BaseFacts Table BuiltinTables TableSpec TableProofs CleanString CleanUtf8
  CleanSpec Utf8Spec CleanStringProofs CleanUtf8Proofs.

(** ** C05 *)

(** The safe filter works character by character; only the size of the result
    decides whether it fits the buffer. *)
Theorem C05_safe_character_by_character :
  forall signed_char s t, fits t s ->
    let out := flat_map (fun c => entry_or_default t (char_code signed_char c) c) s in
    clean_safe signed_char s (Some t) =
    if (strlen out <=? strlen s * N.of_nat (t_maxdata t))%N then Ok (cstr out) else UB BufferOverflow.
Proof. exact clean_safe_exact. Qed.
Print Assumptions C05_safe_character_by_character.

Theorem C05_safe_of_concatenation :
  forall signed_char a b t x y z, text_table t -> nonul a -> nonul b ->
    clean_safe signed_char a (Some t) = Ok x -> clean_safe signed_char b (Some t) = Ok y ->
    clean_safe signed_char (a ++ b) (Some t) = Ok z -> z = x ++ y.
Proof. exact clean_safe_concat. Qed.
Print Assumptions C05_safe_of_concatenation.

Example C05_safe_example :
  clean_safe true (bs "a&b (c)") (Some load_builtin_safe_table) = Ok (bs "a_and_b_-c-") /\
  clean_safe true (bs "a&") (Some load_builtin_safe_table) = Ok (bs "a_and_") /\
  clean_safe true (bs "b (c)") (Some load_builtin_safe_table) = Ok (bs "b_-c-").
Proof. vm_compute. auto. Qed.

(** ** C06 *)

Theorem C06_builtin_safe :
  forall signed_char s, nonul s -> in_memory s ->
    exists o, clean_safe signed_char s (Some load_builtin_safe_table) = Ok o /\
      Forall (fun c => ~ difficult c) o /\ o = flat_map safe_spec s.
Proof.
  intros sc s N M.
  exact (ex_intro _ _ (conj (builtin_safe_eq sc s N M) (conj (safe_output_clean s) eq_refl))).
Qed.
Print Assumptions C06_builtin_safe.

(** (The bound leaves room for the growth of '&'.) *)
Theorem C06_idempotent :
  forall signed_char s o, nonul s -> (strlen s < 2 ^ 57)%N ->
    clean_safe signed_char s (Some load_builtin_safe_table) = Ok o ->
    clean_safe signed_char o (Some load_builtin_safe_table) = Ok o.
Proof. exact safe_idempotent. Qed.
Print Assumptions C06_idempotent.

(** [safe_spec]: difficult characters become '_', '-' or "_and_", all others,
    including every byte from 0x80 up, stay. *)
Theorem C06_what_changes :
  forall c, (difficult c -> In (safe_spec c) [bs "_"; bs "-"; bs "_and_"]) /\
            (~ difficult c -> safe_spec c = [c]) /\
            ((128 <= bN c)%N -> ~ difficult c).
Proof.
  intros c. split; [exact (safe_spec_difficult c)|]. split; [exact (safe_spec_keep c) | exact (high_not_difficult c)].
Qed.
Print Assumptions C06_what_changes.

Example C06_example :
  clean_safe true (bs "my file's [copy] 1/2 & more.txt") (Some load_builtin_safe_table)
  = Ok (bs "my_file_s_-copy-_1_2__and__more.txt") /\
  clean_safe true [xc3; xa9; x09; x7f] (Some load_builtin_safe_table) = Ok [xc3; xa9; "_"; "_"]%byte.
Proof. vm_compute. auto. Qed.

(** ** C07 *)

Theorem C07_inside_the_buffer :
  forall signed_char s t, built t -> roomy t -> fits t s ->
    (exists o, clean_safe signed_char s (Some t) = Ok o) /\
    (exists o, clean_iso8859_1 s (Some t) = Ok o).
Proof.
  intros sc s t B R F.
  exact (conj (ex_intro _ _ (clean_safe_ok sc s t (built_wf t B) R F))
              (ex_intro _ _ (clean_iso8859_1_ok s t (built_wf t B) R F))).
Qed.
Print Assumptions C07_inside_the_buffer.

(** Exactly when the iso8859_1 filter overruns its buffer (for safe see C05). *)
Theorem C07_exactly_when_it_overruns :
  forall s t, fits t s ->
    let out := flat_map (fun c => if (bN c <? 128)%N then [c] else entry_or_default t (bN c) c) s in
    clean_iso8859_1 s (Some t) =
    if (strlen out <=? strlen s * N.of_nat (t_maxdata t))%N then Ok (cstr out) else UB BufferOverflow.
Proof. exact clean_iso8859_1_exact. Qed.
Print Assumptions C07_exactly_when_it_overruns.

(** The built-in tables meet the condition. *)
Theorem C07_builtin_tables_are_roomy :
  Forall roomy [load_builtin_safe_table; load_builtin_iso8859_1_table; load_builtin_cp1252_table;
                load_builtin_unicode_table].
Proof. exact builtin_roomy. Qed.
Print Assumptions C07_builtin_tables_are_roomy.

(** The condition is needed: an empty table, or a default longer than every entry. *)
Theorem C07_overruns_refuted :
  (exists t, built t /\ forall signed_char, clean_safe signed_char (bs "a") (Some t) = UB BufferOverflow) /\
  (exists t, built t /\ (1 <= t_maxdata t)%nat /\
     forall signed_char, clean_safe signed_char (bs "ab") (Some t) = UB BufferOverflow).
Proof. exact overruns. Qed.
Print Assumptions C07_overruns_refuted.

(** ** C08 *)

Theorem C08_iso8859_1_transcodes :
  forall s, nonul s -> in_memory s ->
    exists o, clean_iso8859_1 s (Some load_builtin_iso8859_1_table) = Ok o /\
      o = flat_map iso8859_1_spec s /\ valid_utf8 o.
Proof.
  intros s N M. exact (ex_intro _ _ (conj (builtin_iso8859_1_eq s N M)
    (conj eq_refl (valid_flat_map iso8859_1_spec s iso_spec_valid)))).
Qed.
Print Assumptions C08_iso8859_1_transcodes.

Example C08_example :
  clean_iso8859_1 [x41; xe9; xad; xa0; x85; xff] (Some load_builtin_iso8859_1_table)
  = Ok [x41; xc3; xa9; "-"; " "; "_"; xc3; xbf]%byte.
Proof. vm_compute. reflexivity. Qed.

(** ** C09 *)

(** The first stage alone does what is documented. *)
Theorem C09_cp1252_stage :
  forall s, nonul s -> in_memory s ->
    clean_iso8859_1 s (Some load_builtin_cp1252_table) = Ok (flat_map cp1252_spec s).
Proof. exact builtin_cp1252_eq. Qed.
Print Assumptions C09_cp1252_stage.

(** The chain re-encodes: it gives the documented text exactly for names without any
    of the garbled bytes. *)
Theorem C09_legacy_chain_exactness :
  forall s, nonul s -> (strlen s < 2 ^ 58)%N ->
    ((do x <- clean_iso8859_1 s (Some load_builtin_cp1252_table);
      clean_iso8859_1 x (Some load_builtin_iso8859_1_table)) = Ok (flat_map legacy_spec s)
     <-> Forall (fun c => ~ garbled c) s).
Proof. exact legacy_chain_iff. Qed.
Print Assumptions C09_legacy_chain_exactness.

(** A byte 0x80-0x9F survives exactly when the first stage makes it one 7-bit
    character. *)
Theorem C09_which_bytes :
  forall c, (0x80 <= bN c < 0xA0)%N ->
    ((exists d, cp1252_spec c = [d] /\ (bN d < 128)%N) <-> ~ garbled c).
Proof. exact legacy_single. Qed.
Print Assumptions C09_which_bytes.

(** The euro sign (0x80 in CP-1252): correct is E2 82 AC. *)
Example C09_euro_garbled :
  cp1252_spec x80 = [xe2; x82; xac] /\
  (do x <- clean_iso8859_1 [x80] (Some load_builtin_cp1252_table);
   clean_iso8859_1 x (Some load_builtin_iso8859_1_table)) = Ok [xc3; xa2; "_"; xc2; xac]%byte /\
  (do x <- clean_iso8859_1 [x81; xe9] (Some load_builtin_cp1252_table);
   clean_iso8859_1 x (Some load_builtin_iso8859_1_table)) = Ok ["-"; xc3; xa9]%byte.
Proof. vm_compute. auto. Qed.

(** ** C10 *)

Theorem C10_utf8_decoding :
  forall s t, fits t s ->
    exists o, utf8_read (table_text (table_get t) (t_default t)) s o /\
      clean_utf_8 s (Some t) =
      if (strlen o <=? strlen s * N.of_nat (t_maxdata t))%N then Ok (cstr o) else UB BufferOverflow.
Proof. exact clean_utf_8_exact. Qed.
Print Assumptions C10_utf8_decoding.

(** The reading is unique, so the theorem determines the result. *)
Theorem C10_reading_is_unique :
  forall text s o1 o2, utf8_read text s o1 -> utf8_read text s o2 -> o1 = o2.
Proof. exact utf8_read_fun. Qed.
Print Assumptions C10_reading_is_unique.

(** A cut sequence is one '_' and does not swallow the byte that broke it; an
    over-long blank is a blank; 0x110000 is '_'. *)
Example C10_example :
  clean_utf_8 [xe2; x82; "a"; x80; xc0; xa0; xf4; x90; x80; x80; xc3; xa9]%byte (Some load_builtin_unicode_table)
  = Ok ["_"; "a"; "_"; " "; "_"; xc3; xa9]%byte.
Proof. vm_compute. reflexivity. Qed.

(** ** C11 *)

Theorem C11_utf8_buffer_exact :
  forall s, nonul s -> in_memory s ->
    exists o, utf8_read unicode_text s o /\
      clean_utf_8 s (Some load_builtin_unicode_table) =
        (if (strlen o <=? strlen s)%N then Ok o else UB BufferOverflow) /\
      ((forall u, infix u s -> ~ overlong_nul u) -> (strlen o <= strlen s)%N).
Proof. exact builtin_unicode_exact. Qed.
Print Assumptions C11_utf8_buffer_exact.

Theorem C11_overlong_nul_sequences :
  forall u, overlong_nul u <->
    In u [[xc0; x80]; [xe0; x80; x80]; [xf0; x80; x80; x80]; [xf8; x80; x80; x80; x80];
          [xfc; x80; x80; x80; x80; x80]].
Proof. exact overlong_nul_iff. Qed.
Print Assumptions C11_overlong_nul_sequences.

Theorem C11_overrun_refuted :
  clean_utf_8 [xc0; x80] (Some load_builtin_unicode_table) = UB BufferOverflow.
Proof. vm_compute. reflexivity. Qed.
Print Assumptions C11_overrun_refuted.

(** An over-long NUL is harmless when enough other bytes shrink. *)
Example C11_no_overrun_when_text_shrinks :
  clean_utf_8 ([xc0; x80] ++ flat_map (fun _ => [xe2; x80; x8b]) (seq 0 4)) (Some load_builtin_unicode_table)
  = Ok (bs "_hidden_null_").
Proof. vm_compute. reflexivity. Qed.

(** ** C12 *)

Theorem C12_clean_text_unchanged :
  forall cps s,
    Forall (fun cp => (0 < cp)%N /\ scalar cp /\ untouched cp) cps -> s = flat_map encode cps ->
    nonul s -> in_memory s -> clean_utf_8 s (Some load_builtin_unicode_table) = Ok s.
Proof. exact builtin_unicode_clean. Qed.
Print Assumptions C12_clean_text_unchanged.

(** The replacement list is the built-in table. *)
Theorem C12_replacement_list :
  forall cp, table_get load_builtin_unicode_table cp = unicode_spec cp.
Proof. exact builtin_unicode_get. Qed.
Print Assumptions C12_replacement_list.

Theorem C12_output_well_formed_and_stable :
  forall s o, nonul s -> in_memory s -> clean_utf_8 s (Some load_builtin_unicode_table) = Ok o ->
    well_formed_units o /\ nonul o /\ clean_utf_8 o (Some load_builtin_unicode_table) = Ok o.
Proof. exact builtin_unicode_output. Qed.
Print Assumptions C12_output_well_formed_and_stable.

(** Strict validity is not guaranteed: a surrogate and an over-long form pass. *)
Theorem C12_strict_validity_refuted :
  exists s o, clean_utf_8 s (Some load_builtin_unicode_table) = Ok o /\ ~ valid_utf8 o.
Proof. exact surrogate_passes. Qed.
Print Assumptions C12_strict_validity_refuted.

Example C12_example :
  clean_utf_8 (flat_map encode [0xE9; 0x20AC; 0x1F600; 0x41]%N) (Some load_builtin_unicode_table)
  = Ok (flat_map encode [0xE9; 0x20AC; 0x1F600; 0x41]%N) /\
  clean_utf_8 [xe0; x82; x80] (Some load_builtin_unicode_table) = Ok [xe0; x82; x80].
Proof. vm_compute. auto. Qed.

(** ** C13 *)

Theorem C13_uncgi_inverts :
  forall s e, nonul s -> in_memory e -> cgi_encodes s e -> clean_uncgi e = Ok s.
Proof. exact clean_uncgi_inverts. Qed.
Print Assumptions C13_uncgi_inverts.

(** Malformed escapes included, the filter reads the name as specified. *)
Theorem C13_uncgi_reads :
  forall s o, in_memory s -> cgi_reads s o -> clean_uncgi s = Ok (cstr o).
Proof. exact clean_uncgi_reads. Qed.
Print Assumptions C13_uncgi_reads.

Theorem C13_every_name_has_a_reading : forall s, exists o, cgi_reads s o.
Proof. exact cgi_reads_total. Qed.
Print Assumptions C13_every_name_has_a_reading.

Theorem C13_plain_text_unchanged :
  forall s, nonul s -> in_memory s -> ~ In "%"%byte s -> ~ In "+"%byte s -> clean_uncgi s = Ok s.
Proof. exact clean_uncgi_plain. Qed.
Print Assumptions C13_plain_text_unchanged.

Theorem C13_never_longer :
  forall s, in_memory s -> exists o, clean_uncgi s = Ok o /\ (length o <= length s)%nat.
Proof. exact clean_uncgi_shorter. Qed.
Print Assumptions C13_never_longer.

Theorem C13_escaped_nul_cuts :
  forall s e r, nonul s -> in_memory (e ++ bs "%00" ++ r) -> cgi_encodes s e ->
    clean_uncgi (e ++ bs "%00" ++ r) = Ok s.
Proof. exact clean_uncgi_cut. Qed.
Print Assumptions C13_escaped_nul_cuts.

Example C13_example :
  clean_uncgi (bs "a%2bb+c%20d%25%zz%4") = Ok (bs "a+b c d%%zz%4") /\
  clean_uncgi (bs "ab%00cd") = Ok (bs "ab").
Proof. vm_compute. auto. Qed.

Example C13_encoding_example : cgi_encodes (bs "a+ %") (bs "a%2B+%25").
Proof.
  apply cgi_plain; [discriminate | discriminate |].
  apply (cgi_hex _ _ _ 2 11); [reflexivity | reflexivity | reflexivity |].
  apply cgi_blank.
  apply (cgi_hex _ _ _ 2 5); [reflexivity | reflexivity | reflexivity | constructor].
Qed.

(** ** C14 *)

Theorem C14_wipeup :
  forall s remove_trailing, nonul s -> in_memory s ->
    exists o, clean_wipeup s remove_trailing = Ok o /\ wiped remove_trailing s o /\
      ~ starts_with leading_junk o /\ no_adjacent (separator remove_trailing) o /\
      clean_wipeup o remove_trailing = Ok o.
Proof. exact clean_wipeup_all. Qed.
Print Assumptions C14_wipeup.

(** [wiped] determines the result. *)
Theorem C14_wiped_is_unique : forall dots s o1 o2, wiped dots s o1 -> wiped dots s o2 -> o1 = o2.
Proof. exact wiped_fun. Qed.
Print Assumptions C14_wiped_is_unique.

Example C14_example :
  clean_wipeup (bs "-_#a_-_b.-_c__.txt") true = Ok (bs "a-b.c.txt") /\
  clean_wipeup (bs "-_#a_-_b.-_c__.txt") false = Ok (bs "a-b.-c_.txt") /\
  clean_wipeup (bs "._-a") true = Ok (bs ".a").
Proof. vm_compute. auto. Qed.

(** ** C15 *)

Theorem C15_max_length :
  forall s m, in_memory s ->
    let limit := if (m =? 0)%N then 256%N else m in
    exists o, clean_max_length s m = Ok o /\
      ((strlen s <= limit)%N -> o = s) /\
      ((limit < strlen s)%N -> exists ext, kept_extension s ext /\
         ((limit <= strlen ext)%N -> o = s) /\
         ((strlen ext < limit)%N ->
            strlen o = limit /\ exists front, o = front ++ ext /\ front = firstn (length front) s)) /\
      clean_max_length o m = Ok o.
Proof. exact clean_max_length_all. Qed.
Print Assumptions C15_max_length.

Theorem C15_kept_extension_is_unique :
  forall s e1 e2, kept_extension s e1 -> kept_extension s e2 -> e1 = e2.
Proof. exact kept_extension_fun. Qed.
Print Assumptions C15_kept_extension_is_unique.

Example C15_example :
  clean_max_length (bs "averylongname.tar.gz") 12 = Ok (bs "avery.tar.gz") /\
  clean_max_length (bs "averylongname.tarball.gz") 12 = Ok (bs "averylong.gz") /\
  clean_max_length (bs "averylongname.") 5 = Ok (bs "avery") /\
  clean_max_length (bs "a.verylongextension") 5 = Ok (bs "a.verylongextension").
Proof. vm_compute. auto. Qed.

(** ** C16 *)

Theorem C16_lower :
  forall s, nonul s -> in_memory s -> clean_lower c_locale s = Ok (map lower_spec s).
Proof. exact clean_lower_c. Qed.
Print Assumptions C16_lower.

Theorem C16_lower_in_any_agreeing_locale :
  forall ct s, (forall c, ct_isupper ct c = ct_isupper c_locale c) ->
    (forall c, ct_isupper c_locale c = true -> ct_tolower ct c = ct_tolower c_locale c) ->
    nonul s -> in_memory s -> clean_lower ct s = Ok (map lower_spec s).
Proof. exact clean_lower_agree. Qed.
Print Assumptions C16_lower_in_any_agreeing_locale.

Theorem C16_lower_idempotent :
  forall s, nonul s -> in_memory s ->
    exists o, clean_lower c_locale s = Ok o /\ length o = length s /\ clean_lower c_locale o = Ok o.
Proof. exact clean_lower_twice. Qed.
Print Assumptions C16_lower_idempotent.

Example C16_example :
  clean_lower c_locale (bs "ReadMe [1].TXT" ++ [xc3; x89])%list = Ok (bs "readme [1].txt" ++ [xc3; x89])%list.
Proof. vm_compute. reflexivity. Qed.
