(** * Model of src/filelist.c in memory

    Compare Filelist.v, where a list of files is a list. *)

From Verif Require Import Base Stdio Prog Warnings Mem Words Filelist.

Local Open Scope nat_scope.

(** src/detox_struct.h:27-32 [filelist_t]: the members, and the size with 64 bit pointers *)
Definition L_files := 0.
Definition L_max := 1.
Definition L_count := 2.
Definition L_ptr := 3.
Definition L_members := 4.
Definition sizeof_filelist_t : N := 24.
Definition sizeof_pointer : N := 8.

(** An array of char pointers. *)
Definition pointers (size : N) : nat := N.to_nat (size / sizeof_pointer).

(** src/filelist.c:24-31 *)
Definition c_filelist_count (list : option ptr) : wmem Z :=
  match list with None => wret 0%Z | Some list => int_at list L_count end.

(** [list->files] *)
Definition c_files (list : ptr) : wmem ptr :=
  let$ files := ptr_at list L_files in deref files.

(** src/filelist.c:62-74 *)
Definition c_filelist_get (list : option ptr) : wmem (option ptr) :=
  match list with
  | None => wret None
  | Some list =>
    let$ count := int_at list L_count in
    if (count =? 0)%Z then wret None
    else
      let$ ptr := int_at list L_ptr in
      let$ count := int_at list L_count in
      if (ptr =? count)%Z then
        let$ _ := assign list L_ptr (Int 0) in wret None
      else
        let$ files := c_files list in
        let$ ptr := int_at list L_ptr in
        let$ _ := incr list L_ptr in
        let$ i := index ptr in
        ptr_at files i
  end.

(** src/filelist.c:137-144 *)
Definition c_filelist_reset (list : option ptr) : wmem unit :=
  match list with None => wret tt | Some list => assign list L_ptr (Int 0) end.

Section filelist.

Context {al : allocator}.

(** src/filelist.c:81-92 *)
Definition c_filelist_init : wmem ptr :=
  let$ list := new_words sizeof_filelist_t L_members in
  let$ _ := clear list L_members in
  let$ _ := assign list L_max (Int (Z.of_nat FILELIST_CHUNK)) in
  let$ max := int_at list L_max in
  let size := size_t (sizeof_pointer * size_of max) in
  let$ files := new_words size (pointers size) in
  let$ _ := assign list L_files (Ptr files) in
  wret list.

(** src/filelist.c:107-127: a larger array *)
Definition c_filelist_grow (list : ptr) : wmem unit :=
  let$ max := int_at list L_max in
  let$ new_max := int_sum max (Z.of_nat FILELIST_CHUNK) in
  let new_size := size_t (sizeof_pointer * size_of new_max) in
  let$ new_files := new_words new_size (pointers new_size) in
  let$ _ := clear new_files (pointers new_size) in
  let$ _ := wwhile (fun i =>
              let$ count := int_at list L_count in
              if (i <? count)%Z then
                let$ files := c_files list in
                let$ j := index i in
                let$ f := ptr_at files j in
                let$ _ := assign new_files j (word_of f) in
                wret (inl (i + 1)%Z)
              else wret (inr tt)) 0%Z in
  let$ files := c_files list in
  let$ _ := bytes (free files) in
  let$ _ := assign list L_files (Ptr new_files) in
  assign list L_max (Int new_max).

(** src/filelist.c:100-131 *)
Definition c_filelist_put (list : option ptr) (file : ptr) : wmem unit :=
  match list with
  | None =>
    let$ _ := saying (complain (bs "detox: could not write to a null filelist")) in
    fun _ => quietly (Exit EXIT_FAILURE)
  | Some list =>
    let$ count := int_at list L_count in
    let$ max := int_at list L_max in
    let$ _ := (if (count =? max)%Z then c_filelist_grow list else wret tt) in
    let$ files := c_files list in
    let$ count := int_at list L_count in
    let$ _ := incr list L_count in
    let$ copy := bytes (c_strdup file) in
    let$ i := index count in
    let$ _ := assign files i (Ptr copy) in
    c_filelist_reset (Some list)
  end.

(** src/filelist.c:39-53 *)
Definition c_filelist_free (list : option ptr) : wmem unit :=
  match list with
  | None => wret tt
  | Some list =>
    let$ _ := wwhile (fun i =>
                let$ count := int_at list L_count in
                if (i <? count)%Z then
                  let$ files := c_files list in
                  let$ j := index i in
                  let$ f := ptr_at files j in
                  let$ _ := (match f with Some f => bytes (free f) | None => wret tt end) in
                  wret (inl (i + 1)%Z)
                else wret (inr tt)) 0%Z in
    let$ files := c_files list in
    let$ _ := bytes (free files) in
    bytes (free list)
  end.

End filelist.
