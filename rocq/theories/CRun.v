(** * Model of running a sequence of linked filters in memory

    src/sequence.c:98-124, src/filter.c:194-242, and those functions of src/clean_string.c and
    src/clean_utf_8.c that use a table.  Compare CFilters.v, where filters and tables are not
    in memory; the functions without a table are those of CFilters.v.  [literal] has the
    addresses of the string literals. *)

From Verif Require Import Base Stdio CleanString CleanUtf8 Filter Prog Warnings Mem CFilters Words CTable CConfig.

Local Open Scope nat_scope.

(** printf("%d") of an int *)
Definition printf_int (z : Z) : str := if (z <? 0)%Z then bs "-" ++ printf_d (Z.to_N (- z)) else printf_d (Z.to_N z).

Definition w_exit {A} (t : talk A) : wmem A := fun s => let% a := t in done (a, s).

Section run.

Context {al : allocator}.
Context (literal : str -> ptr) (pf : platform).

(** src/clean_string.c:70-72, 123-125, src/clean_utf_8.c:198-200 *)
Definition c_put_string (replace_walk output_walk : ptr) : mem ptr :=
  while (fun '(replace_walk, output_walk) =>
           let* c := load replace_walk in
           if beq c NUL then mret (inr output_walk)
           else
             let* _ := store output_walk c in
             mret (inl (plus replace_walk 1, plus output_walk 1)))
        (replace_walk, output_walk).

(** src/clean_string.c:55-68, 109-121: the text for a key, or the default; NULL means that
    the byte is left alone *)
Definition w_translation (table : ptr) (key : N) : wmem (option ptr) :=
  let$ replace_walk := c_table_get (Some table) key in
  match replace_walk with
  | Some _ => wret replace_walk
  | None => ptr_at table T_default_translation
  end.

(** src/clean_string.c:43, 104, src/clean_utf_8.c:78 *)
Definition w_output (filename table : ptr) : wmem ptr :=
  let$ len := bytes (c_strlen filename) in
  let$ max_data_length := int_at table T_max_data_length in
  bytes (malloc (size_t (size_t (len * size_of max_data_length) + 1))).

(** src/clean_string.c:29-80 [clean_iso8859_1] *)
Definition w_clean_iso8859_1 (filename table : option ptr) : wmem (option ptr) :=
  match filename with
  | None => wret None
  | Some filename =>
    match table with
    | None => w_exit internal_error
    | Some table =>
      let$ output := w_output filename table in
      let$ output_walk :=
        wwhile (fun '(input_walk, output_walk) =>
                  let$ c := bytes (load input_walk) in
                  if beq c NUL then wret (inr output_walk)
                  else if (N.land (bN c) 0x80 =? 0)%N then
                    let$ _ := bytes (store output_walk c) in wret (inl (plus input_walk 1, plus output_walk 1))
                  else
                    let$ replace_walk := w_translation table (bN c) in
                    match replace_walk with
                    | None => let$ _ := bytes (store output_walk c) in wret (inl (plus input_walk 1, plus output_walk 1))
                    | Some replace_walk =>
                      let$ output_walk := bytes (c_put_string replace_walk output_walk) in wret (inl (plus input_walk 1, output_walk))
                    end)
               (filename, output) in
      let$ _ := bytes (store output_walk NUL) in
      wret (Some output)
    end
  end.

(** src/clean_string.c:90-133 [clean_safe] *)
Definition w_clean_safe (filename table : option ptr) : wmem (option ptr) :=
  match filename with
  | None => wret None
  | Some filename =>
    match table with
    | None => w_exit internal_error
    | Some table =>
      let$ output := w_output filename table in
      let$ output_walk :=
        wwhile (fun '(input_walk, output_walk) =>
                  let$ c := bytes (load input_walk) in
                  if beq c NUL then wret (inr output_walk)
                  else
                    let$ replace_walk := w_translation table (char_key (p_schar pf) c) in
                    match replace_walk with
                    | None => let$ _ := bytes (store output_walk c) in wret (inl (plus input_walk 1, plus output_walk 1))
                    | Some replace_walk =>
                      let$ output_walk := bytes (c_put_string replace_walk output_walk) in wret (inl (plus input_walk 1, output_walk))
                    end)
               (filename, output) in
      let$ _ := bytes (store output_walk NUL) in
      wret (Some output)
    end
  end.

(** src/clean_utf_8.c:158-181: the text for a value *)
Definition w_utf_8_replacement (table : ptr) (new_value : N) : wmem (option ptr) :=
  let$ replace_walk := c_table_get (Some table) new_value in
  let$ replace_walk :=
    (match replace_walk with
     | None =>
       if (new_value =? 0)%N then
         let$ _ := saying (complain (bs "detox: warning: UTF-8 encoded NULL encountered")) in
         wret (Some (literal null_replacement))
       else wret None
     | Some _ => wret replace_walk
     end) in
  let$ replace_walk :=
    (match replace_walk with
     | None =>
       if (UNICODE_MAX_VALUE <? new_value)%N then
         let$ _ := saying (complain (bs "detox: warning: unicode character 0x" ++ hex_upper 8 new_value ++ bs " is invalid")) in
         wret (Some (literal [invalid_replacement]))
       else wret None
     | Some _ => wret replace_walk
     end) in
  match replace_walk with
  | None => ptr_at table T_default_translation
  | Some _ => wret replace_walk
  end.

(** src/clean_utf_8.c:113, 147: [*output_walk = invalid_replacement[0]] *)
Definition w_put_invalid (output_walk : ptr) : wmem unit :=
  let$ c := bytes (load (literal [invalid_replacement])) in
  bytes (store output_walk c).

(** src/clean_utf_8.c:60-206 [clean_utf_8] *)
Definition w_clean_utf_8 (filename table : option ptr) : wmem (option ptr) :=
  match filename with
  | None => wret None
  | Some filename =>
    match table with
    | None => w_exit internal_error
    | Some table =>
      let$ output := w_output filename table in
      let$ output_walk :=
        wwhile (fun '(input_walk, output_walk) =>
                  let$ c := bytes (load input_walk) in
                  if beq c NUL then wret (inr output_walk)
                  else
                    match get_utf_8_width c with
                    | None =>
                      let$ _ := saying (complain (bs "detox: warning: invalid encoding")) in
                      let$ _ := w_put_invalid output_walk in
                      wret (inl (plus input_walk 1, plus output_walk 1))
                    | Some width =>
                      let$ (value, input_walk) := bytes (c_continuation (width - 1) (unpack_start c width) input_walk) in
                      match value with
                      | None =>
                        let$ _ := w_put_invalid output_walk in
                        wret (inl (input_walk, plus output_walk 1))
                      | Some new_value =>
                        let input_walk := plus input_walk 1 in
                        let$ replace_walk := w_utf_8_replacement table new_value in
                        match replace_walk with
                        | None =>
                          let$ output_walk := bytes (CFilters.c_copy width (mkPtr (p_block input_walk) (p_off input_walk - width)) output_walk) in
                          wret (inl (input_walk, output_walk))
                        | Some replace_walk =>
                          let$ output_walk := bytes (c_put_string replace_walk output_walk) in
                          wret (inl (input_walk, output_walk))
                        end
                      end
                    end)
               (filename, output) in
      let$ _ := bytes (store output_walk NUL) in
      wret (Some output)
    end
  end.

(** src/filter.c:194-242 [filter_run]; max_length is a size_t *)
Definition w_filter_run (filter filename : option ptr) : wmem (option ptr) :=
  match filter with
  | None => w_exit internal_error
  | Some filter =>
    match filename with
    | None => wret None
    | Some _ =>
      let$ cleaner := int_at filter FT_cleaner in
      if (cleaner =? cleaner_code F_iso8859_1)%Z then
        let$ table := ptr_at filter FT_table in w_clean_iso8859_1 filename table
      else if (cleaner =? cleaner_code F_lower)%Z then bytes (c_clean_lower (p_ctype pf) filename)
      else if (cleaner =? cleaner_code F_max_length)%Z then
        let$ max_length := int_at filter FT_max_length in bytes (c_clean_max_length filename (Z.to_N max_length))
      else if (cleaner =? cleaner_code F_safe)%Z then
        let$ table := ptr_at filter FT_table in w_clean_safe filename table
      else if (cleaner =? cleaner_code F_uncgi)%Z then bytes (c_clean_uncgi filename)
      else if (cleaner =? cleaner_code F_utf_8)%Z then
        let$ table := ptr_at filter FT_table in w_clean_utf_8 filename table
      else if (cleaner =? cleaner_code F_wipeup)%Z then
        let$ remove_trailing := int_at filter FT_remove_trailing in
        bytes (c_clean_wipeup filename (negb (remove_trailing =? 0)%Z))
      else
        w_exit (let% _ := complain (bs "detox: unknown filter " ++ printf_int cleaner) in quietly (Exit EXIT_FAILURE))
    end
  end.

(** src/sequence.c:98-124 [sequence_run_filters] *)
Definition w_sequence_run (sequence filename : option ptr) : wmem (option ptr) :=
  match sequence with
  | None => w_exit internal_error
  | Some sequence =>
    match filename with
    | None => wret None
    | Some filename =>
      let$ filter := ptr_at sequence SQ_filters in
      let$ work := bytes (c_strdup filename) in
      wwhile (fun '(filter, work) =>
                match filter, work with
                | Some f, Some w =>
                  let$ hold := w_filter_run (Some f) (Some w) in
                  let$ _ := bytes (free w) in
                  let$ next := ptr_at f FT_next in
                  wret (inl (next, hold))
                | _, _ => wret (inr work)
                end)
             (filter, Some work)
    end
  end.

(** One name after the other, with the same sequence: what src/detox.c:107-116 does to it *)
Fixpoint w_run_all (sequence : ptr) (filenames : list ptr) : wmem (list (option ptr)) :=
  match filenames with
  | [] => wret []
  | filename :: filenames =>
    let$ r := w_sequence_run (Some sequence) (Some filename) in
    let$ rs := w_run_all sequence filenames in
    wret (r :: rs)
  end.

End run.
