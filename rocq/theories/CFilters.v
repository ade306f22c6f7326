(** * Model of src/clean_string.c, src/clean_utf_8.c, src/filter.c and src/sequence.c in memory

    Compare CleanString.v, CleanUtf8.v and Warnings.v, where strings are lists.  Here the
    pointers walk.  The strings in tables, the tables and the filters themselves are not
    in the memory of the model. *)

From Verif Require Import Base Stdio Table CleanString CleanUtf8 Filter Prog Warnings Mem.

Local Open Scope nat_scope.

Section filters.

Context {al : allocator}.

(** src/clean_string.c:29-80 [clean_iso8859_1] *)
Definition c_clean_iso8859_1 (filename : option ptr) (t : option table) : mem (option ptr) :=
  match filename with
  | None => mret None
  | Some filename =>
    match t with
    | None => outside internal_error
    | Some t =>
      let* len := c_strlen filename in
      let* output := malloc (size_t (size_t (len * N.of_nat (t_maxdata t)) + 1)) in
      let* output_walk :=
        while (fun '(input_walk, output_walk) =>
                 let* c := load input_walk in
                 if beq c NUL then mret (inr output_walk)
                 else if (N.land (bN c) 0x80 =? 0)%N then
                   let* _ := store output_walk c in mret (inl (plus input_walk 1, plus output_walk 1))
                 else
                   match match table_get t (bN c) with Some r => Some r | None => t_default t end with
                   | None => let* _ := store output_walk c in mret (inl (plus input_walk 1, plus output_walk 1))
                   | Some replace =>
                     let* output_walk := c_write output_walk replace in mret (inl (plus input_walk 1, output_walk))
                   end)
              (filename, output) in
      let* _ := store output_walk NUL in
      mret (Some output)
    end
  end.

(** src/clean_string.c:90-133 [clean_safe] *)
Definition c_clean_safe (schar : bool) (filename : option ptr) (t : option table) : mem (option ptr) :=
  match filename with
  | None => mret None
  | Some filename =>
    match t with
    | None => outside internal_error
    | Some t =>
      let* len := c_strlen filename in
      let* output := malloc (size_t (size_t (len * N.of_nat (t_maxdata t)) + 1)) in
      let* output_walk :=
        while (fun '(input_walk, output_walk) =>
                 let* c := load input_walk in
                 if beq c NUL then mret (inr output_walk)
                 else
                   match match table_get t (char_key schar c) with Some r => Some r | None => t_default t end with
                   | None => let* _ := store output_walk c in mret (inl (plus input_walk 1, plus output_walk 1))
                   | Some replace =>
                     let* output_walk := c_write output_walk replace in mret (inl (plus input_walk 1, output_walk))
                   end)
              (filename, output) in
      let* _ := store output_walk NUL in
      mret (Some output)
    end
  end.

(** src/clean_string.c:143-175 [clean_uncgi]; [&&] reads the next byte only if it has to *)
Definition c_clean_uncgi (filename : option ptr) : mem (option ptr) :=
  match filename with
  | None => mret None
  | Some filename =>
    let* len := c_strlen filename in
    let* output := malloc (size_t (len + 1)) in
    let* output_walk :=
      while (fun '(input_walk, output_walk) =>
               let* c := load input_walk in
               if beq c NUL then mret (inr output_walk)
               else
                 let* digits :=
                   (if beq c "%" then
                      let* h1 := load (plus input_walk 1) in
                      if isxdigit h1 then
                        let* h2 := load (plus input_walk 2) in
                        mret (if isxdigit h2 then Some (h1, h2) else None)
                      else mret None
                    else mret None) in
                 match digits with
                 | Some (h1, h2) =>
                   let* _ := store output_walk (Nb (hexval h1 * 16 + hexval h2)) in
                   mret (inl (plus input_walk 3, plus output_walk 1))
                 | None =>
                   let* _ := store output_walk (if beq c "+" then " " else c)%byte in
                   mret (inl (plus input_walk 1, plus output_walk 1))
                 end)
            (filename, output) in
    let* _ := store output_walk NUL in
    mret (Some output)
  end%byte.

(** src/clean_string.c:194-245 [clean_wipeup] *)
Definition c_clean_wipeup (filename : option ptr) (remove_trailing : bool) : mem (option ptr) :=
  match filename with
  | None => mret None
  | Some filename =>
    let* filename :=
      while (fun filename =>
               let* c := load filename in
               if (beq c "-" || beq c "_" || beq c "#")%byte then mret (inl (plus filename 1)) else mret (inr filename))
            filename in
    let* len := c_strlen filename in
    let* output := malloc (size_t (len + 1)) in
    let* search := c_strdup_of (if remove_trailing then bs ".-_" else bs "-_") in
    let put (current : option ptr) (output_walk : ptr) : mem ptr :=
      match current with
      | Some p => let* x := load p in let* _ := store output_walk x in mret (plus output_walk 1)
      | None => mret output_walk
      end in
    let* ends :=
      while (fun '(input_walk, output_walk, current) =>
               let* c := load input_walk in
               if beq c NUL then mret (inr (output_walk, current))
               else
                 let* seek := c_strchr search c in
                 match seek with
                 | Some seek =>
                   let current := match current with
                                  | None => Some seek
                                  | Some cur => if p_off seek <? p_off cur then Some seek else Some cur
                                  end in
                   mret (inl (plus input_walk 1, output_walk, current))
                 | None =>
                   let* output_walk := put current output_walk in
                   let* _ := store output_walk c in
                   mret (inl (plus input_walk 1, plus output_walk 1, None))
                 end)
            (filename, output, None) in
    let (output_walk, current) := ends in
    let* output_walk := put current output_walk in
    let* _ := store output_walk NUL in
    let* _ := free search in
    mret (Some output)
  end.

(** src/clean_string.c:250-309 [clean_max_length].  Where the code forms the pointer before
    the first byte, to find that it is not above [filename], the model stays where it is. *)
Definition c_clean_max_length (filename : option ptr) (max_length : N) : mem (option ptr) :=
  match filename with
  | None => mret None
  | Some filename =>
    let max_length := (if max_length <=? 0 then 256 else max_length)%N in
    let* len := c_strlen filename in
    if (len <=? max_length)%N then let* r := c_strdup filename in mret (Some r)
    else
      let* output := malloc (size_t (max_length + 1)) in
      let* s := c_read filename in
      let* _ := c_snprintf output (size_t (max_length + 1)) s in
      let* extension := c_strrchr filename "."%byte in
      match extension with
      | None => mret (Some output)
      | Some extension =>
        let* n := c_strlen extension in
        if (n =? 1)%N then mret (Some output)
        else
          let* extension :=
            while (fun input_walk =>
                     let input_walk := mkPtr (p_block input_walk) (p_off input_walk - 1) in
                     if p_off filename <? p_off input_walk then
                       if 5 <? p_off extension - p_off input_walk then mret (inr extension)
                       else
                         let* c := load input_walk in
                         if beq c "."%byte then mret (inr input_walk) else mret (inl input_walk)
                     else mret (inr extension))
                  extension in
          let* extension_length := c_strlen extension in
          if (max_length <=? extension_length)%N then
            let* s := c_read filename in
            let* _ := outside (complain (bs "warning: max_length " ++ printf_d max_length ++
                                         bs " is less than required file length for '" ++ s ++ bs "'.  giving up.")) in
            let* _ := free output in
            let* r := c_strdup filename in
            mret (Some r)
          else
            let body_length := N.to_nat (max_length - extension_length) in
            let* e := c_read extension in
            let* _ := c_snprintf (plus output body_length) (size_t (extension_length + 1)) e in
            mret (Some output)
      end
  end.

(** src/clean_string.c:318-342 [clean_lower] *)
Definition c_clean_lower (ct : ctype) (filename : option ptr) : mem (option ptr) :=
  match filename with
  | None => mret None
  | Some filename =>
    let* len := c_strlen filename in
    let* output := malloc (size_t (len + 1)) in
    let* output_walk :=
      while (fun '(input_walk, output_walk) =>
               let* c := load input_walk in
               if beq c NUL then mret (inr output_walk)
               else
                 let* _ := store output_walk (if ct_isupper ct c then ct_tolower ct c else c) in
                 mret (inl (plus input_walk 1, plus output_walk 1)))
            (filename, output) in
    let* _ := store output_walk NUL in
    mret (Some output)
  end.

(** src/clean_utf_8.c:123-143: the continuation bytes.  [input_walk] is at the last byte
    read; the result is the value, or None after a complaint, and where it has got to. *)
Fixpoint c_continuation (expected_chars : nat) (new_value : N) (input_walk : ptr) : mem (option N * ptr) :=
  match expected_chars with
  | O => mret (Some new_value, input_walk)
  | S expected =>
    let input_walk := plus input_walk 1 in
    let* c := load input_walk in
    if beq c NUL then
      let* _ := outside (complain (bs "detox: warning: UTF-8 sequence ended unexpectedly (null)")) in
      mret (None, input_walk)
    else if negb (is_utf_8_cont c) then
      let* _ := outside (complain (bs "detox: warning: UTF-8 sequence ended unexpectedly (missing con't)")) in
      mret (None, input_walk)
    else c_continuation expected ((new_value * 64 + unpack_cont c) mod 2 ^ 32)%N input_walk
  end.

(** src/clean_utf_8.c:190-195: [n] bytes from one pointer to the other *)
Fixpoint c_copy (n : nat) (input_walk output_walk : ptr) : mem ptr :=
  match n with
  | O => mret output_walk
  | S n' =>
    let* c := load input_walk in
    let* _ := store output_walk c in
    c_copy n' (plus input_walk 1) (plus output_walk 1)
  end.

(** src/clean_utf_8.c:60-206 [clean_utf_8] *)
Definition c_clean_utf_8 (filename : option ptr) (t : option table) : mem (option ptr) :=
  match filename with
  | None => mret None
  | Some filename =>
    match t with
    | None => outside internal_error
    | Some t =>
      let* len := c_strlen filename in
      let* output := malloc (size_t (size_t (len * N.of_nat (t_maxdata t)) + 1)) in
      let* output_walk :=
        while (fun '(input_walk, output_walk) =>
                 let* c := load input_walk in
                 if beq c NUL then mret (inr output_walk)
                 else
                   match get_utf_8_width c with
                   | None =>
                     let* _ := outside (complain (bs "detox: warning: invalid encoding")) in
                     let* _ := store output_walk invalid_replacement in
                     mret (inl (plus input_walk 1, plus output_walk 1))
                   | Some width =>
                     let* (value, input_walk) := c_continuation (width - 1) (unpack_start c width) input_walk in
                     match value with
                     | None =>
                       let* _ := store output_walk invalid_replacement in
                       mret (inl (input_walk, plus output_walk 1))
                     | Some new_value =>
                       let input_walk := plus input_walk 1 in
                       let* _ := outside (utf_8_value_says t new_value) in
                       match utf_8_replacement t new_value with
                       | None =>
                         let* output_walk := c_copy width (mkPtr (p_block input_walk) (p_off input_walk - width)) output_walk in
                         mret (inl (input_walk, output_walk))
                       | Some replace =>
                         let* output_walk := c_write output_walk replace in
                         mret (inl (input_walk, output_walk))
                       end
                     end
                   end)
              (filename, output) in
      let* _ := store output_walk NUL in
      mret (Some output)
    end
  end.

(** src/filter.c:194-242 [filter_run] *)
Definition c_filter_run (pf : platform) (f : filter_t) (filename : option ptr) : mem (option ptr) :=
  match filename with
  | None => mret None
  | Some _ =>
    match f_cleaner f with
    | F_iso8859_1 => c_clean_iso8859_1 filename (f_table f)
    | F_lower => c_clean_lower (p_ctype pf) filename
    | F_max_length => c_clean_max_length filename (f_max_length f)
    | F_safe => c_clean_safe (p_schar pf) filename (f_table f)
    | F_uncgi => c_clean_uncgi filename
    | F_utf_8 => c_clean_utf_8 filename (f_table f)
    | F_wipeup => c_clean_wipeup filename (f_remove_trailing f)
    | F_unknown v =>
      outside (let% _ := complain (bs "detox: unknown filter " ++ printf_d v) in quietly (Exit EXIT_FAILURE))
    end
  end.

(** src/sequence.c:116-121 *)
Fixpoint c_run_filters (pf : platform) (fs : list filter_t) (work : option ptr) : mem (option ptr) :=
  match fs, work with
  | [], _ => mret work
  | _, None => mret None
  | f :: rest, Some w =>
    let* hold := c_filter_run pf f work in
    let* _ := free w in
    c_run_filters pf rest hold
  end.

(** src/sequence.c:98-124 [sequence_run_filters] *)
Definition c_sequence_run (pf : platform) (seq : option sequence_t) (filename : option ptr) : mem (option ptr) :=
  match seq with
  | None => outside internal_error
  | Some s =>
    match filename with
    | None => mret None
    | Some filename =>
      let* work := c_strdup filename in
      c_run_filters pf (s_filters s) (Some work)
    end
  end.

End filters.
