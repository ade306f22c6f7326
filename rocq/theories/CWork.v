(** * Model of src/file.c and of the work loop of src/detox.c with lists and sequence in memory

    Compare CFile.v, where the sequence and the lists of files are not in memory, and File.v,
    Inline.v and Main.v, where nothing is.  The flags among the options and the structures of
    the C library are not in the memory of the model. *)

From Verif Require Import Base Stdio CleanUtf8 Filter Filelist Prog Warnings File Inline Mem CFilters CFile Words CFilelist CRun.

Local Open Scope nat_scope.

(** Programs that use memory and talk to the operating system. *)
Definition sprog (A : Type) : Type := store_t -> prog (A * store_t).

Definition sret {A} (a : A) : sprog A := fun s => Ret (a, s).
Definition sbind {A B} (m : sprog A) (k : A -> sprog B) : sprog B := fun s => let! (a, s') := m s in k a s'.
Notation "'let#' x := m 'in' k" := (sbind m (fun x => k))
  (at level 200, x pattern, m at level 100, k at level 200, right associativity).

Definition inner {A} (m : wmem A) : sprog A := fun s => talking (m s).
Definition heapwise {A} (m : mem A) : sprog A := inner (bytes m).
Definition ssys (c : call) : sprog (answer c) := fun s => let! r := sys c in Ret (r, s).
Definition sprint (out : stream) (text : str) : sprog unit := ssys (Print out text).
Definition sstop {A} (w : stop) : sprog A := fun _ => Stop w.

Section files.

Context {al : allocator}.

(** The members of [options_t] (src/detox_struct.h:90-107) that are pointers: sequence_to_use,
    files_to_ignore and files; [literal] has the addresses of the string literals. *)
Context (literal : str -> ptr) (sequence ignore files : option ptr).

(** src/file.c:33-48 [ignore_file].  [filename] is the d_name of a dirent, which belongs to the
    C library. *)
Definition w_ignore_file (filename : str) : wmem bool :=
  if (match filename with c :: _ => beq c "." | [] => false end) then wret true
  else
    wwhile (fun _ =>
              let$ file_walk := c_filelist_get ignore in
              match file_walk with
              | None => wret (inr false)
              | Some file_walk =>
                let$ name := bytes (c_read file_walk) in
                if str_eqb filename name then wret (inr true) else wret (inl tt)
              end) tt.

(** src/file.c:95-104 and 390-399: a copy is made and cleaned.  The copy of a protected
    name is forgotten: [work] is all that points to it. *)
Definition w_clean_copy (name : ptr) (pf : platform) : sprog (option ptr) :=
  let# work := heapwise (c_strdup name) in
  let# protected := heapwise (c_is_protected work) in
  let work := if protected then None else Some work in
  let# hold := inner (w_sequence_run literal pf sequence work) in
  let# _ := (match work with Some w => heapwise (free w) | None => sret tt end) in
  sret hold.

(** src/file.c:69-161 [parse_file] *)
Definition w_parse_file (filename : ptr) (o : options_t) : sprog ptr :=
  let# n := heapwise (c_strlen filename) in
  let len := size_t (n + 1) in
  let# old_filename := heapwise (malloc len) in
  let# _ := heapwise (c_memcpy old_filename filename (N.to_nat len)) in
  let# slash := heapwise (c_strrchr old_filename "/"%byte) in
  let old_filename_ptr := match slash with Some p => plus p 1 | None => old_filename end in
  let# hold := w_clean_copy old_filename_ptr (o_platform o) in
  match hold with
  | None => sret old_filename
  | Some work =>
    let# unchanged := heapwise (c_equal old_filename_ptr work) in
    if unchanged then sret old_filename
    else
      let len := p_off old_filename_ptr - p_off old_filename in
      let# n := heapwise (c_strlen work) in
      let# new_filename := heapwise (malloc (size_t (N.of_nat len + n + 1))) in
      let# _ := heapwise (c_strncpy new_filename old_filename len) in
      let# _ := heapwise (c_strcpy (plus new_filename len) work) in
      let# _ := heapwise (free work) in
      let# old := heapwise (c_read old_filename) in
      let# stat_info_old := ssys (Lstat old) in
      match stat_info_old with
      | inr _ => let# _ := heapwise (free new_filename) in sret old_filename
      | inl stat_info_old =>
        let# new := heapwise (c_read new_filename) in
        let# stat_info_new := ssys (Lstat new) in
        if match stat_info_new with inl stat_info_new => is_other_file stat_info_old stat_info_new | inr _ => false end then
          let# old := heapwise (c_read old_filename) in
          let# new := heapwise (c_read new_filename) in
          let# _ := sprint Stderr (refusal old new (bs "file already exists")) in
          let# _ := heapwise (free new_filename) in
          sret old_filename
        else
          let# _ := (if ((0 <? o_verbose o)%N || o_dry_run o)%bool then
                       let# old := heapwise (c_read old_filename) in
                       let# new := heapwise (c_read new_filename) in
                       sprint Stdout (announcement old new)
                     else sret tt) in
          if o_dry_run o then let# _ := heapwise (free new_filename) in sret old_filename
          else
            let# old := heapwise (c_read old_filename) in
            let# new := heapwise (c_read new_filename) in
            let# err := ssys (Rename old new) in
            match err with
            | Some message =>
              let# old := heapwise (c_read old_filename) in
              let# new := heapwise (c_read new_filename) in
              let# _ := sprint Stderr (refusal old new message) in
              let# _ := heapwise (free new_filename) in
              sret old_filename
            | None =>
              let# _ := heapwise (free old_filename) in
              sret new_filename
            end
      end
  end.

(** src/file.c:166-232 [parse_dir].  [free] in line 198 leaves errno as it is. *)
Fixpoint w_parse_dir (fuel : nat) (o : options_t) (filename : ptr) : sprog unit :=
  match fuel with
  | O => sstop StopFuel
  | S fuel' =>
    let# name := heapwise (c_read filename) in
    let# st := ssys (Lstat name) in
    match st with
    | inr _ => sret tt
    | inl st =>
      if negb (isdir st) then sret tt
      else
        let# n := heapwise (c_strlen filename) in
        let new_file_length := size_t (n + 1024) in
        let# new_file := heapwise (malloc new_file_length) in
        let# name := heapwise (c_read filename) in
        let# h := ssys (Opendir name) in
        match h with
        | NotOpened emfile message =>
          let# _ := sprint Stderr (bs "unable to parse: " ++ message ++ [Nb 10]) in
          let# _ := heapwise (free new_file) in
          if emfile then sstop (StopExit EXIT_FAILURE) else sret tt
        | Opened handle =>
          let# _ := w_dir_loop fuel' o filename new_file new_file_length handle st in
          let# _ := ssys (Closedir handle) in
          sret tt
        end
    end
  end
with w_dir_loop (fuel : nat) (o : options_t) (filename new_file : ptr) (new_file_length : N) (handle : N) (st : stat) : sprog unit :=
  match fuel with
  | O => sstop StopFuel
  | S fuel' =>
    let# entry := ssys (Readdir handle) in
    match entry with
    | None => sret tt
    | Some d_name =>
      let# ignored := inner (w_ignore_file d_name) in
      if ignored : bool then w_dir_loop fuel' o filename new_file new_file_length handle st
      else
        let# name := heapwise (c_read filename) in
        let# _ := heapwise (c_snprintf new_file new_file_length (name ++ bs "/" ++ d_name)) in
        let# path := heapwise (c_read new_file) in
        let# st' := ssys (Lstat path) in
        let st := match st' with inl x => x | inr _ => st end in
        let# _ :=
          (if isdir st then
             let# work := w_parse_file new_file o in
             let# _ := (if o_recurse o then w_parse_dir fuel' o work else sret tt) in
             let# _ := heapwise (free work) in
             sret tt
           else if (isreg st || o_special o)%bool then
             let# work := w_parse_file new_file o in
             let# _ := heapwise (free work) in
             sret tt
           else sret tt) in
        w_dir_loop fuel' o filename new_file new_file_length handle st
    end
  end.

(** src/detox.c:92-110: one file argument.  In lines 105 and 107 what parse_file returns
    is dropped. *)
Definition w_process_argument (fuel : nat) (o : options_t) (file_walk : ptr) : sprog unit :=
  let# name := heapwise (c_read file_walk) in
  let# _ := (if (0 <? o_verbose o)%N then sprint Stdout (bs "Scanning: " ++ name ++ [Nb 10]) else sret tt) in
  let# st := ssys (Lstat name) in
  match st with
  | inr message =>
    let# _ := sprint Stderr (name ++ bs ": " ++ message ++ [Nb 10]) in sret tt
  | inl st =>
    if isdir st then
      let# file_work := w_parse_file file_walk o in
      let# _ := w_parse_dir fuel o file_work in
      let# _ := heapwise (free file_work) in
      sret tt
    else if (isreg st || o_special o)%bool then
      let# _ := w_parse_file file_walk o in sret tt
    else sret tt
  end.

(** src/detox.c:91-111.  [n] bounds the number of rounds. *)
Fixpoint w_process_arguments (n fuel : nat) (o : options_t) : sprog unit :=
  match n with
  | O => sstop StopFuel
  | S n' =>
    let# file_walk := inner (c_filelist_get files) in
    match file_walk with
    | None => sret tt
    | Some file_walk =>
      let# _ := w_process_argument fuel o file_walk in
      w_process_arguments n' fuel o
    end
  end.

(** src/file.c:278-422: the loop *)
Fixpoint w_inline_loop (fuel : nat) (pf : platform) (base : ptr) (input : list byte) : sprog unit :=
  match fuel with
  | O => sstop StopFuel
  | S fuel' =>
    let# got := heapwise (c_read_piece (p_schar pf) base input) in
    match got with
    | None => sret tt
    | Some (has_newline, rest) =>
      let# work := w_clean_copy base pf in
      let# _ :=
        (match work with
         | Some w =>
           let# text := heapwise (c_read w) in
           let# _ := sprint Stdout text in
           heapwise (free w)
         | None =>
           let# text := heapwise (c_read base) in
           sprint Stdout text
         end) in
      let# _ := (if has_newline : bool then sprint Stdout [newline] else sret tt) in
      w_inline_loop fuel' pf base rest
    end
  end.

(** src/file.c:242-430 [parse_inline] with out_filename == NULL; [base] is never freed *)
Definition w_parse_inline (in_filename : option ptr) (o : options_t) : sprog unit :=
  let# name := (match in_filename with
                | Some f => let# s := heapwise (c_read f) in sret (Some s)
                | None => sret None
                end) in
  let# contents := ssys (ReadStream name) in
  match contents with
  | inr message =>
    match name with
    | Some f => sprint Stderr (f ++ bs ": " ++ message ++ [newline])
    | None => sret tt
    end
  | inl bytes =>
    let# base := heapwise (malloc (N.of_nat INLINE_BUF_SIZE)) in
    w_inline_loop (S (length bytes)) (o_platform o) base bytes
  end.

(** src/detox.c:115-126.  [n] bounds the number of rounds. *)
Fixpoint w_inline_arguments (n : nat) (o : options_t) : sprog unit :=
  match n with
  | O => sstop StopFuel
  | S n' =>
    let# file_walk := inner (c_filelist_get files) in
    match file_walk with
    | None => sret tt
    | Some file_walk =>
      let# name := heapwise (c_read file_walk) in
      let# st := ssys (Lstat name) in
      let# _ :=
        (match st with
         | inr message => sprint Stderr (name ++ bs ": " ++ message ++ [newline])
         | inl st => if isdir st then sprint Stderr (name ++ bs ": is a directory" ++ [newline]) else w_parse_inline (Some file_walk) o
         end) in
      w_inline_arguments n' o
    end
  end.

(** src/detox.c:88-130 *)
Definition w_work (fuel : nat) (o : options_t) : sprog N := fun s =>
  let n := S (heap_size (s_heap s)) in
  (if negb (o_is_inline_mode o) then
     let# _ := w_process_arguments n fuel o in sret EXIT_SUCCESS
   else
     let# count := inner (c_filelist_count files) in
     if (0 <? count)%Z then
       let# _ := w_inline_arguments n o in sret EXIT_SUCCESS
     else
       let# _ := w_parse_inline None o in sret EXIT_SUCCESS) s.

End files.
