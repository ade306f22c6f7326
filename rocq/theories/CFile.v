(** * Model of src/file.c and of the work loop of src/detox.c in memory

    Compare File.v, Inline.v and Main.v, where strings are lists.  The lists of files, the
    options and the structures of the C library are not in the memory of the model. *)

From Verif Require Import Base Stdio CleanUtf8 Filter Filelist Prog Warnings File Inline Mem CFilters.

Local Open Scope nat_scope.

(** Programs that use memory and talk to the operating system. *)
Definition cprog (A : Type) : Type := heap -> prog (A * heap).

Definition cret {A} (a : A) : cprog A := fun h => Ret (a, h).
Definition cbind {A B} (m : cprog A) (k : A -> cprog B) : cprog B := fun h => let! (a, h') := m h in k a h'.
Notation "'let@' x := m 'in' k" := (cbind m (fun x => k))
  (at level 200, x pattern, m at level 100, k at level 200, right associativity).

Definition inside {A} (m : mem A) : cprog A := fun h => talking (m h).
Definition csys (c : call) : cprog (answer c) := fun h => let! r := sys c in Ret (r, h).
Definition cprint (out : stream) (text : str) : cprog unit := csys (Print out text).
Definition cstop {A} (w : stop) : cprog A := fun _ => Stop w.

Section files.

Context {al : allocator}.

(** src/file.c:57-64 [is_protected] for a non-NULL name *)
Definition c_is_protected (filename : ptr) : mem bool :=
  let* c0 := load filename in
  if beq c0 "." then
    let* c1 := load (plus filename 1) in
    if beq c1 NUL then mret true
    else if beq c1 "." then
      let* c2 := load (plus filename 2) in
      mret (beq c2 NUL)
    else mret false
  else mret false.

(** src/file.c:95-104 and 390-399: a copy is made and cleaned.  The copy of a protected
    name is forgotten: [work] is all that points to it. *)
Definition c_clean_copy (name : ptr) (o : options_t) : cprog (option ptr) :=
  let@ work := inside (c_strdup name) in
  let@ protected := inside (c_is_protected work) in
  let work := if protected then None else Some work in
  let@ hold := inside (c_sequence_run (o_platform o) (o_sequence_to_use o) work) in
  let@ _ := (match work with Some w => inside (free w) | None => cret tt end) in
  cret hold.

(** src/file.c:69-161 [parse_file] *)
Definition c_parse_file (filename : ptr) (o : options_t) : cprog ptr :=
  let@ n := inside (c_strlen filename) in
  let len := size_t (n + 1) in
  let@ old_filename := inside (malloc len) in
  let@ _ := inside (c_memcpy old_filename filename (N.to_nat len)) in
  let@ slash := inside (c_strrchr old_filename "/"%byte) in
  let old_filename_ptr := match slash with Some p => plus p 1 | None => old_filename end in
  let@ hold := c_clean_copy old_filename_ptr o in
  match hold with
  | None => cret old_filename
  | Some work =>
    let@ unchanged := inside (c_equal old_filename_ptr work) in
    if unchanged then cret old_filename
    else
      let len := p_off old_filename_ptr - p_off old_filename in
      let@ n := inside (c_strlen work) in
      let@ new_filename := inside (malloc (size_t (N.of_nat len + n + 1))) in
      let@ _ := inside (c_strncpy new_filename old_filename len) in
      let@ _ := inside (c_strcpy (plus new_filename len) work) in
      let@ _ := inside (free work) in
      let@ old := inside (c_read old_filename) in
      let@ stat_info_old := csys (Lstat old) in
      match stat_info_old with
      | inr _ => let@ _ := inside (free new_filename) in cret old_filename
      | inl stat_info_old =>
        let@ new := inside (c_read new_filename) in
        let@ stat_info_new := csys (Lstat new) in
        if match stat_info_new with inl stat_info_new => is_other_file stat_info_old stat_info_new | inr _ => false end then
          let@ old := inside (c_read old_filename) in
          let@ new := inside (c_read new_filename) in
          let@ _ := cprint Stderr (refusal old new (bs "file already exists")) in
          let@ _ := inside (free new_filename) in
          cret old_filename
        else
          let@ _ := (if ((0 <? o_verbose o)%N || o_dry_run o)%bool then
                       let@ old := inside (c_read old_filename) in
                       let@ new := inside (c_read new_filename) in
                       cprint Stdout (announcement old new)
                     else cret tt) in
          if o_dry_run o then let@ _ := inside (free new_filename) in cret old_filename
          else
            let@ old := inside (c_read old_filename) in
            let@ new := inside (c_read new_filename) in
            let@ err := csys (Rename old new) in
            match err with
            | Some message =>
              let@ old := inside (c_read old_filename) in
              let@ new := inside (c_read new_filename) in
              let@ _ := cprint Stderr (refusal old new message) in
              let@ _ := inside (free new_filename) in
              cret old_filename
            | None =>
              let@ _ := inside (free old_filename) in
              cret new_filename
            end
      end
  end.

(** src/file.c:166-232 [parse_dir].  [free] in line 198 leaves errno as it is. *)
Fixpoint c_parse_dir (fuel : nat) (o : options_t) (filename : ptr) (ign : option filelist)
  : cprog (option filelist) :=
  match fuel with
  | O => cstop StopFuel
  | S fuel' =>
    let@ name := inside (c_read filename) in
    let@ st := csys (Lstat name) in
    match st with
    | inr _ => cret ign
    | inl st =>
      if negb (isdir st) then cret ign
      else
        let@ n := inside (c_strlen filename) in
        let new_file_length := size_t (n + 1024) in
        let@ new_file := inside (malloc new_file_length) in
        let@ name := inside (c_read filename) in
        let@ h := csys (Opendir name) in
        match h with
        | NotOpened emfile message =>
          let@ _ := cprint Stderr (bs "unable to parse: " ++ message ++ [Nb 10]) in
          let@ _ := inside (free new_file) in
          if emfile then cstop (StopExit EXIT_FAILURE) else cret ign
        | Opened handle =>
          let@ ign' := c_dir_loop fuel' o filename new_file new_file_length handle st ign in
          let@ _ := csys (Closedir handle) in
          cret ign'
        end
    end
  end
with c_dir_loop (fuel : nat) (o : options_t) (filename new_file : ptr) (new_file_length : N) (handle : N) (st : stat)
  (ign : option filelist) : cprog (option filelist) :=
  match fuel with
  | O => cstop StopFuel
  | S fuel' =>
    let@ entry := csys (Readdir handle) in
    match entry with
    | None => cret ign
    | Some d_name =>
      let@ ig := (fun h => let! r := lift (ignore_file d_name ign) in Ret (r, h)) in
      let (ignored, ign) := ig in
      if ignored then c_dir_loop fuel' o filename new_file new_file_length handle st ign
      else
        let@ name := inside (c_read filename) in
        let@ _ := inside (c_snprintf new_file new_file_length (name ++ bs "/" ++ d_name)) in
        let@ path := inside (c_read new_file) in
        let@ st' := csys (Lstat path) in
        let st := match st' with inl x => x | inr _ => st end in
        let@ ign :=
          (if isdir st then
             let@ work := c_parse_file new_file o in
             let@ ign := (if o_recurse o then c_parse_dir fuel' o work ign else cret ign) in
             let@ _ := inside (free work) in
             cret ign
           else if (isreg st || o_special o)%bool then
             let@ work := c_parse_file new_file o in
             let@ _ := inside (free work) in
             cret ign
           else cret ign) in
        c_dir_loop fuel' o filename new_file new_file_length handle st ign
    end
  end.

(** src/detox.c:92-110: one file argument.  In lines 105 and 107 what parse_file returns
    is dropped. *)
Definition c_process_argument (fuel : nat) (o : options_t) (file_walk : ptr) (ign : option filelist)
  : cprog (option filelist) :=
  let@ name := inside (c_read file_walk) in
  let@ _ := (if (0 <? o_verbose o)%N then cprint Stdout (bs "Scanning: " ++ name ++ [Nb 10]) else cret tt) in
  let@ st := csys (Lstat name) in
  match st with
  | inr message =>
    let@ _ := cprint Stderr (name ++ bs ": " ++ message ++ [Nb 10]) in cret ign
  | inl st =>
    if isdir st then
      let@ file_work := c_parse_file file_walk o in
      let@ ign := c_parse_dir fuel o file_work ign in
      let@ _ := inside (free file_work) in
      cret ign
    else if (isreg st || o_special o)%bool then
      let@ _ := c_parse_file file_walk o in cret ign
    else cret ign
  end.

(** src/detox.c:91-111 *)
Fixpoint c_process_arguments (fuel : nat) (o : options_t) (files : list ptr) (ign : option filelist)
  : cprog (option filelist) :=
  match files with
  | [] => cret ign
  | f :: rest =>
    let@ ign := c_process_argument fuel o f ign in
    c_process_arguments fuel o rest ign
  end.

(** ** parse_inline *)

(** p - 1; before the first byte of a block there is nothing *)
Definition c_back (p : ptr) : mem ptr :=
  match p_off p with
  | O => fun _ => quietly (UB BufferUnderread)
  | S n => mret (mkPtr (p_block p) n)
  end.

(** fgets(base, size, in_fp); the result is what is left of the stream *)
Definition c_fgets (base : ptr) (size : nat) (input : list byte) : mem (option (list byte)) :=
  match input with
  | [] => mret None
  | _ =>
    let (piece, rest) := fgets_bytes (size - 1) input in
    let* _ := c_write base (piece ++ [NUL]) in
    mret (Some rest)
  end.

(** src/file.c:341-373: bring bytes in one at a time.  See [bring_in] in Inline.v about
    ungetc. *)
Definition c_bring_in (schar : bool) (seek : ptr) (remaining : Z) (input : list byte) : mem (list byte) :=
  let* (seek, input) :=
    while (fun '(seek, remaining, input) =>
             if (0 <? remaining)%Z then
               match input with
               | [] => mret (inr (seek, input))
               | c :: rest =>
                 let* _ := store seek c in
                 if negb (is_utf_8_cont c) then
                   if (schar && beq c xff)%bool then
                     let* _ := outside (complain (bs "detox: warning: stream push back failed")) in
                     mret (inr (plus seek 1, rest))
                   else mret (inr (seek, input))
                 else mret (inl (plus seek 1, (remaining - 1)%Z, rest))
               end
             else mret (inr (seek, input)))
          (seek, remaining, input) in
  let* _ := store seek NUL in
  mret input.

(** src/file.c:282-380: complete a character at the end of a piece without newline *)
Definition c_complete (schar : bool) (base : ptr) (input : list byte) : mem (list byte) :=
  let* found := c_strchr base NUL in
  match found with
  | None => mret input
  | Some hold =>
    let* seek := c_back hold in
    let* seek :=
      while (fun seek =>
               let* c := load seek in
               if is_utf_8_cont c && (p_off hold - p_off seek <? UTF_8_MAX_LENGTH) then
                 let* seek := c_back seek in mret (inl seek)
               else mret (inr seek))
            seek in
    let* c := load seek in
    if is_utf_8_start c then
      let remaining := match get_utf_8_width c with Some width => Z.of_nat width | None => (-1)%Z end in
      let* (seek, remaining) :=
        while (fun '(seek, remaining) =>
                 let seek := plus seek 1 in
                 let remaining := (remaining - 1)%Z in
                 if (0 <? remaining)%Z then
                   let* c := load seek in
                   if is_utf_8_cont c then mret (inl (seek, remaining)) else mret (inr (seek, remaining))
                 else mret (inr (seek, remaining)))
              (seek, remaining) in
      if (0 <? remaining)%Z then
        let* c := load seek in
        if beq c NUL then c_bring_in schar seek remaining input else mret input
      else mret input
    else mret input
  end.

(** src/file.c:278-393: read one piece into [base]; the result is whether it ended in a
    newline, and what is left of the stream *)
Definition c_read_piece (schar : bool) (base : ptr) (input : list byte) : mem (option (bool * list byte)) :=
  let* got := c_fgets base (INLINE_BUF_SIZE - INLINE_BUF_PADDING) input in
  match got with
  | None => mret None
  | Some rest =>
    let* hold := c_strrchr base newline in
    let* rest := (match hold with None => c_complete schar base rest | Some _ => mret rest end) in
    let* hold := c_strrchr base newline in
    match hold with
    | None => mret (Some (false, rest))
    | Some hold => let* _ := store hold NUL in mret (Some (true, rest))
    end
  end.

(** src/file.c:278-422: the loop *)
Fixpoint c_inline_loop (fuel : nat) (o : options_t) (base : ptr) (input : list byte) : cprog unit :=
  match fuel with
  | O => cstop StopFuel
  | S fuel' =>
    let@ got := inside (c_read_piece (p_schar (o_platform o)) base input) in
    match got with
    | None => cret tt
    | Some (has_newline, rest) =>
      let@ work := c_clean_copy base o in
      let@ _ :=
        (match work with
         | Some w =>
           let@ text := inside (c_read w) in
           let@ _ := cprint Stdout text in
           inside (free w)
         | None =>
           let@ text := inside (c_read base) in
           cprint Stdout text
         end) in
      let@ _ := (if has_newline : bool then cprint Stdout [newline] else cret tt) in
      c_inline_loop fuel' o base rest
    end
  end.

(** src/file.c:242-430 [parse_inline] with out_filename == NULL; [base] is never freed *)
Definition c_parse_inline (in_filename : option ptr) (o : options_t) : cprog unit :=
  let@ name := (match in_filename with
                | Some f => let@ s := inside (c_read f) in cret (Some s)
                | None => cret None
                end) in
  let@ contents := csys (ReadStream name) in
  match contents with
  | inr message =>
    match name with
    | Some f => cprint Stderr (f ++ bs ": " ++ message ++ [newline])
    | None => cret tt
    end
  | inl bytes =>
    let@ base := inside (malloc (N.of_nat INLINE_BUF_SIZE)) in
    c_inline_loop (S (length bytes)) o base bytes
  end.

(** src/detox.c:114-126 *)
Fixpoint c_inline_arguments (o : options_t) (files : list ptr) : cprog unit :=
  match files with
  | [] => cret tt
  | f :: rest =>
    let@ name := inside (c_read f) in
    let@ st := csys (Lstat name) in
    let@ _ :=
      (match st with
       | inr message => cprint Stderr (name ++ bs ": " ++ message ++ [newline])
       | inl st => if isdir st then cprint Stderr (name ++ bs ": is a directory" ++ [newline]) else c_parse_inline (Some f) o
       end) in
    c_inline_arguments o rest
  end.

End files.
