(** * Model of src/clean_string.c (the string filters)

    Input names are C strings (see [nonul] in Base.v); a walking [char *] is the
    list of bytes from it to the terminator.  Allocation always succeeds (on
    failure src/wrapped.c:17-39 exits). For what they print on stderr see Warnings.v. *)

From Verif Require Import Base Table.

(** Allocation size of the three table-driven filters,
    src/clean_string.c:43, 103 and src/clean_utf_8.c:78 *)
Definition table_cap (t : table) (s : str) : N :=
  size_t (size_t (strlen s * N.of_nat (t_maxdata t)) + 1).

(** src/clean_string.c:48-75: loop of [clean_iso8859_1] *)
Fixpoint iso8859_1_loop (cap : N) (t : table) (input : str) (acc : list byte)
  : res (list byte) :=
  match input with
  | [] => Ok acc
  | c :: rest =>
    if (N.land (bN c) 0x80 =? 0)%N then
      do a <- wr cap acc c; iso8859_1_loop cap t rest a
    else
      match table_get t (bN c) with
      | Some replace => do a <- wrs cap acc replace; iso8859_1_loop cap t rest a
      | None =>
        match t_default t with
        | None => do a <- wr cap acc c; iso8859_1_loop cap t rest a
        | Some replace => do a <- wrs cap acc replace; iso8859_1_loop cap t rest a
        end
      end
  end.

(** src/clean_string.c:29-80 [clean_iso8859_1] for a non-NULL name;
    [None] is a NULL table, which terminates the program (38-41). *)
Definition clean_iso8859_1 (filename : str) (t : option table) : res str :=
  match t with
  | None => Exit EXIT_FAILURE
  | Some t =>
    let cap := table_cap t filename in
    do acc <- iso8859_1_loop cap t filename []; finish cap acc
  end.

(** src/clean_string.c:109: the (possibly signed) char is converted to the
    unsigned int parameter of table_get. [schar] says whether plain char is
    signed, which is up to the platform. *)
Definition char_key (schar : bool) (c : byte) : N :=
  if schar && (128 <=? bN c)%N then (2 ^ 32 - 256 + bN c)%N else bN c.

(** src/clean_string.c:108-128: loop of [clean_safe] *)
Fixpoint safe_loop (schar : bool) (cap : N) (t : table) (input : str) (acc : list byte)
  : res (list byte) :=
  match input with
  | [] => Ok acc
  | c :: rest =>
    match table_get t (char_key schar c) with
    | Some replace => do a <- wrs cap acc replace; safe_loop schar cap t rest a
    | None =>
      match t_default t with
      | None => do a <- wr cap acc c; safe_loop schar cap t rest a
      | Some replace => do a <- wrs cap acc replace; safe_loop schar cap t rest a
      end
    end
  end.

(** src/clean_string.c:90-133 [clean_safe] *)
Definition clean_safe (schar : bool) (filename : str) (t : option table) : res str :=
  match t with
  | None => Exit EXIT_FAILURE
  | Some t =>
    let cap := table_cap t filename in
    do acc <- safe_loop schar cap t filename []; finish cap acc
  end.

(** isxdigit() for a byte (C standard; the same in every locale) *)
Definition isxdigit (c : byte) : bool :=
  let n := bN c in
  ((48 <=? n) && (n <=? 57) || (65 <=? n) && (n <=? 70) || (97 <=? n) && (n <=? 102))%N.

(** Value of a hexadecimal digit *)
Definition hexval (c : byte) : N :=
  let n := bN c in
  (if n <=? 57 then n - 48 else if n <=? 70 then n - 55 else n - 87)%N.

(** src/clean_string.c:157-170: loop of [clean_uncgi]. [input_walk[1]] and
    [input_walk[2]] are only read when the byte before is not the terminator:
    isxdigit('\0') is false. [(char) strtol(conv, NULL, 16)] of two digits. *)
Fixpoint uncgi_loop (cap : N) (input : str) (acc : list byte) : res (list byte) :=
  match input with
  | [] => Ok acc
  | c :: rest =>
    match rest with
    | h1 :: (h2 :: rest2) =>
      if beq c "%" && isxdigit h1 && isxdigit h2 then
        do a <- wr cap acc (Nb (hexval h1 * 16 + hexval h2)); uncgi_loop cap rest2 a
      else if beq c "+" then do a <- wr cap acc " "; uncgi_loop cap rest a
      else do a <- wr cap acc c; uncgi_loop cap rest a
    | _ =>
      if beq c "+" then do a <- wr cap acc " "; uncgi_loop cap rest a
      else do a <- wr cap acc c; uncgi_loop cap rest a
    end
  end%byte.

(** src/clean_string.c:143-175 [clean_uncgi] *)
Definition clean_uncgi (filename : str) : res str :=
  let cap := size_t (strlen filename + 1) in
  do acc <- uncgi_loop cap filename []; finish cap acc.

(** src/clean_string.c:204-206 *)
Fixpoint wipeup_skip (filename : str) : str :=
  match filename with
  | c :: rest => if (beq c "-" || beq c "_" || beq c "#")%byte then wipeup_skip rest else filename
  | [] => []
  end.

(** strchr(search, c) as an index into [search] *)
Fixpoint strchr_idx (search : str) (c : byte) (i : nat) : option nat :=
  match search with
  | [] => None
  | x :: r => if beq x c then Some i else strchr_idx r c (S i)
  end.

(** src/clean_string.c:216-238: loop of [clean_wipeup]; [current] is the index
    into [search] (a char * in the code, compared with <). *)
Fixpoint wipeup_loop (cap : N) (search : str) (input : str) (current : option nat)
  (acc : list byte) : res (list byte) :=
  match input with
  | [] =>
    match current with
    | Some i => wr cap acc (nth i search NUL)
    | None => Ok acc
    end
  | c :: rest =>
    match strchr_idx search c 0 with
    | Some seek =>
      let current' := match current with
                      | None => Some seek
                      | Some cur => if (seek <? cur)%nat then Some seek else Some cur
                      end in
      wipeup_loop cap search rest current' acc
    | None =>
      do a <- match current with
              | Some i => wr cap acc (nth i search NUL)
              | None => Ok acc
              end;
      do a' <- wr cap a c;
      wipeup_loop cap search rest None a'
    end
  end.

(** src/clean_string.c:194-245 [clean_wipeup] *)
Definition clean_wipeup (filename : str) (remove_trailing : bool) : res str :=
  let f := wipeup_skip filename in
  let cap := size_t (strlen f + 1) in
  let search := if remove_trailing then bs ".-_" else bs "-_" in
  do acc <- wipeup_loop cap search f None []; finish cap acc.

(** strrchr(s, c): the zipper (bytes before, reversed; bytes from the last
    occurrence on). *)
Fixpoint strrchr_from (c : byte) (before : list byte) (s : str)
  (found : option (list byte * str)) : option (list byte * str) :=
  match s with
  | [] => found
  | x :: r => strrchr_from c (x :: before) r (if beq x c then Some (before, s) else found)
  end.
Definition strrchr (s : str) (c : byte) : option (list byte * str) :=
  strrchr_from c [] s None.

(** src/clean_string.c:286-295: walk back from the last dot.  [before] are the
    bytes in front of [input_walk] (nearest first), [at_] the bytes from
    [input_walk] on, [dist] is [extension - input_walk], [extension] the current
    extension.  [--input_walk > filename] means that after the step there is
    still at least one byte in front.
    Simplified: when the last dot is the first byte of the name the code forms
    the pointer [filename - 1] and compares it, which the C standard leaves
    undefined; it is modelled as an ordinary comparison. *)
Fixpoint second_ext (before : list byte) (at_ : str) (dist : nat) (extension : str) : str :=
  match before with
  | [] => extension
  | c :: before' =>
    match before' with
    | [] => extension
    | _ =>
      if (5 <? S dist)%nat then extension
      else if beq c "."%byte then c :: at_
      else second_ext before' (c :: at_) (S dist) extension
    end
  end.

(** src/clean_string.c:250-309 [clean_max_length]; [max_length] is a size_t.
    snprintf(output, n + 1, "%s", s) stores the first n bytes of s; the second
    snprintf stores at [output + body_length]. *)
Definition clean_max_length (filename : str) (max_length : N) : res str :=
  let max_length := (if max_length <=? 0 then 256 else max_length)%N in
  if (strlen filename <=? max_length)%N then Ok filename
  else
    let n := N.to_nat max_length in
    let cap := size_t (max_length + 1) in
    let output := firstn n filename in
    match strrchr filename "."%byte with
    | None => Ok output
    | Some (before, extension) =>
      if (strlen extension =? 1)%N then Ok output
      else
        let extension := second_ext before extension 0 extension in
        let extension_length := strlen extension in
        if (max_length <=? extension_length)%N then Ok filename
        else
          let body_length := N.to_nat (max_length - extension_length) in
          (* the bytes body_length .. body_length+extension_length are stored *)
          if (N.of_nat body_length + extension_length + 1 <=? cap)%N
          then Ok (firstn body_length output ++ extension)
          else UB BufferOverflow
    end.

(** The ctype functions of the current locale, as used on plain chars.
    src/parse_table.c:49 may set LC_CTYPE from the environment, so they are a
    parameter. *)
Record ctype := mkCtype { ct_isupper : byte -> bool; ct_tolower : byte -> byte }.

(** The "C" locale (and every UTF-8 locale: bytes above 0x7f are not letters). *)
Definition ascii_isupper (c : byte) : bool := ((65 <=? bN c) && (bN c <=? 90))%N.
Definition ascii_tolower (c : byte) : byte :=
  if ascii_isupper c then Nb (bN c + 32) else c.
Definition c_locale : ctype := mkCtype ascii_isupper ascii_tolower.

(** src/clean_string.c:331-337: loop of [clean_lower] *)
Fixpoint lower_loop (ct : ctype) (cap : N) (input : str) (acc : list byte) : res (list byte) :=
  match input with
  | [] => Ok acc
  | c :: rest =>
    do a <- (if ct_isupper ct c then wr cap acc (ct_tolower ct c) else wr cap acc c);
    lower_loop ct cap rest a
  end.

(** src/clean_string.c:318-342 [clean_lower] *)
Definition clean_lower (ct : ctype) (filename : str) : res str :=
  let cap := size_t (strlen filename + 1) in
  do acc <- lower_loop ct cap filename []; finish cap acc.
