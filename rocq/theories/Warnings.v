(** * Model of what the filters print

    src/clean_string.c, src/clean_utf_8.c, src/filter.c and src/sequence.c once more, with
    the messages they write on stderr.  The results are those of CleanString.v,
    CleanUtf8.v and Filter.v (see WarningsProofs.v). *)

From Verif Require Import Base Stdio Table CleanString CleanUtf8 Filter Prog.

Definition complain (text : str) : talk unit := say Stderr (text ++ [newline]).

(** fprintf(stderr, "internal error\n") followed by exit(EXIT_FAILURE) *)
Definition internal_error {A} : talk A :=
  let% _ := complain (bs "internal error") in quietly (Exit EXIT_FAILURE).

(** src/clean_string.c:29-80 and 90-133: the functions print nothing else. *)
Definition clean_iso8859_1_says (filename : str) (t : option table) : talk str :=
  match t with
  | None => internal_error
  | Some _ => quietly (clean_iso8859_1 filename t)
  end.

Definition clean_safe_says (schar : bool) (filename : str) (t : option table) : talk str :=
  match t with
  | None => internal_error
  | Some _ => quietly (clean_safe schar filename t)
  end.

(** src/clean_string.c:250-309 [clean_max_length] with the message of line 299, where the
    limit is converted to int *)
Definition clean_max_length_says (filename : str) (max_length : N) : talk str :=
  let max_length := (if max_length <=? 0 then 256 else max_length)%N in
  if (strlen filename <=? max_length)%N then done filename
  else
    let n := N.to_nat max_length in
    let cap := size_t (max_length + 1) in
    let output := firstn n filename in
    match strrchr filename "."%byte with
    | None => done output
    | Some (before, extension) =>
      if (strlen extension =? 1)%N then done output
      else
        let extension := second_ext before extension 0 extension in
        let extension_length := strlen extension in
        if (max_length <=? extension_length)%N then
          let% _ := complain (bs "warning: max_length " ++ printf_d max_length ++
                              bs " is less than required file length for '" ++ filename ++ bs "'.  giving up.") in
          done filename
        else
          let body_length := N.to_nat (max_length - extension_length) in
          quietly (if (N.of_nat body_length + extension_length + 1 <=? cap)%N
                   then Ok (firstn body_length output ++ extension)
                   else UB BufferOverflow)
    end.

(** src/clean_utf_8.c:158-177: the message about a code point, if any *)
Definition utf_8_value_says (t : table) (new_value : N) : talk unit :=
  match table_get t new_value with
  | Some _ => done tt
  | None =>
    if (new_value =? 0)%N then complain (bs "detox: warning: UTF-8 encoded NULL encountered")
    else if (UNICODE_MAX_VALUE <? new_value)%N then
      complain (bs "detox: warning: unicode character 0x" ++ hex_upper 8 new_value ++ bs " is invalid")
    else done tt
  end.

(** src/clean_utf_8.c:83-201: main loop, with the messages of lines 112, 129, 135, 165
    and 175 *)
Fixpoint utf_8_loop_says (fuel : nat) (cap : N) (t : table) (input : str) (acc : list byte)
  : talk (list byte) :=
  match input with
  | [] => done acc
  | c :: rest =>
    match fuel with
    | O => done acc
    | S fuel' =>
      match get_utf_8_width c with
      | None =>
        let% _ := complain (bs "detox: warning: invalid encoding") in
        let% a := quietly (wr cap acc invalid_replacement) in
        utf_8_loop_says fuel' cap t rest a
      | Some width =>
        match utf_8_cont_loop (width - 1) (unpack_start c width) rest [] with
        | inr rest' =>
          let% _ := complain (match rest' with
                              | [] => bs "detox: warning: UTF-8 sequence ended unexpectedly (null)"
                              | _ => bs "detox: warning: UTF-8 sequence ended unexpectedly (missing con't)"
                              end) in
          let% a := quietly (wr cap acc invalid_replacement) in
          utf_8_loop_says fuel' cap t rest' a
        | inl (new_value, eaten, rest') =>
          let% _ := utf_8_value_says t new_value in
          let% a := quietly (wrs cap acc (match utf_8_replacement t new_value with
                                          | Some replace => replace
                                          | None => c :: eaten
                                          end)) in
          utf_8_loop_says fuel' cap t rest' a
        end
      end
    end
  end.

(** src/clean_utf_8.c:60-206 [clean_utf_8] *)
Definition clean_utf_8_says (filename : str) (t : option table) : talk str :=
  match t with
  | None => internal_error
  | Some t =>
    let cap := table_cap t filename in
    let% acc := utf_8_loop_says (length filename) cap t filename [] in quietly (finish cap acc)
  end.

(** src/filter.c:194-242 [filter_run] with the message of line 237 *)
Definition filter_run_says (pf : platform) (f : filter_t) (filename : option str) : talk (option str) :=
  match filename with
  | None => done None
  | Some name =>
    let some (r : talk str) := let% x := r in done (Some x) in
    match f_cleaner f with
    | F_iso8859_1 => some (clean_iso8859_1_says name (f_table f))
    | F_lower => some (quietly (clean_lower (p_ctype pf) name))
    | F_max_length => some (clean_max_length_says name (f_max_length f))
    | F_safe => some (clean_safe_says (p_schar pf) name (f_table f))
    | F_uncgi => some (quietly (clean_uncgi name))
    | F_utf_8 => some (clean_utf_8_says name (f_table f))
    | F_wipeup => some (quietly (clean_wipeup name (f_remove_trailing f)))
    | F_unknown v =>
      let% _ := complain (bs "detox: unknown filter " ++ printf_d v) in quietly (Exit EXIT_FAILURE)
    end
  end.

(** src/sequence.c:116-121 *)
Fixpoint run_filters_says (pf : platform) (fs : list filter_t) (work : option str) : talk (option str) :=
  match fs, work with
  | [], _ => done work
  | _, None => done None
  | f :: rest, Some _ => let% hold := filter_run_says pf f work in run_filters_says pf rest hold
  end.

(** src/sequence.c:98-124 [sequence_run_filters] with the message of line 105 *)
Definition sequence_run_says (pf : platform) (seq : option sequence_t) (filename : option str)
  : talk (option str) :=
  match seq with
  | None => internal_error
  | Some s =>
    match filename with
    | None => done None
    | Some name => run_filters_says pf (s_filters s) (Some name)
    end
  end.
