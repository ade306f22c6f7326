(** * Model of src/table.c in memory

    Compare Table.v, where a table is a list of rows. *)

From Verif Require Import Base Stdio Prog Warnings Mem Words.

Local Open Scope nat_scope.

(** src/detox_struct.h:39-57 [table_t]: the members, and the size with 64 bit pointers *)
Definition T_length := 0.
Definition T_used := 1.
Definition T_max_data_length := 2.
Definition T_default_translation := 3.
Definition T_rows := 4.
Definition T_hits := 5.
Definition T_misses := 6.
Definition T_overwrites := 7.
Definition T_seeks := 8.
Definition T_use_hash := 9.
Definition T_builtin := 10.
Definition T_max_key := 11.
Definition T_members := 12.
Definition sizeof_table_t : N := 64.

(** src/detox_struct.h:34-37 [table_row_t] *)
Definition R_key := 0.
Definition R_data := 1.
Definition sizeof_table_row_t : N := 16.
Definition row_members (size : N) : nat := 2 * N.to_nat (size / sizeof_table_row_t).

(** [rows[i].key], [rows[i].data] *)
Definition c_row_key (rows : ptr) (i : Z) : wmem N :=
  let$ i := index i in
  let$ k := int_at rows (2 * i + R_key) in
  wret (unsigned_of k).
Definition c_row_data (rows : ptr) (i : Z) : wmem (option ptr) :=
  let$ i := index i in
  ptr_at rows (2 * i + R_data).

(** [table->rows] *)
Definition c_rows (table : ptr) : wmem ptr :=
  let$ rows := ptr_at table T_rows in deref rows.

Section table.

Context {al : allocator}.

(** src/table.c:21-44 [table_init] *)
Definition c_table_init (max_rows : Z) : wmem ptr :=
  let max_rows := if (max_rows <=? 0)%Z then 500%Z else max_rows in
  let row_length := size_t (size_of max_rows * sizeof_table_row_t) in
  let$ ret := new_words sizeof_table_t T_members in
  let$ _ := clear ret T_members in
  let$ rows := new_words row_length (row_members row_length) in
  let$ _ := assign ret T_rows (Ptr rows) in
  let$ rows := c_rows ret in
  let$ _ := clear rows (row_members row_length) in
  let$ _ := assign ret T_length (Int max_rows) in
  let$ _ := assign ret T_use_hash (Int 1) in
  wret ret.

(** src/table.c:100-103 [table_hash]; without a remainder, that is when the length is 0,
    there is no result in range *)
Definition c_table_hash (table_length : Z) (key : N) : wmem Z :=
  if (unsigned_of table_length =? 0)%N then wfail IntOverflow
  else wret (int_of (key mod unsigned_of table_length)).

(** src/table.c:141-146 and 205-210: the first row with [p] *)
Definition c_find_row (table : ptr) (p : N -> bool) : wmem Z :=
  wwhile (fun i =>
            let$ length := int_at table T_length in
            if (i <? length)%Z then
              let$ rows := c_rows table in
              let$ k := c_row_key rows i in
              if p k then wret (inr i) else wret (inl (i + 1)%Z)
            else wret (inr (-1)%Z))
         0%Z.

(** src/table.c:116-170 [table_put] *)
Definition c_table_put (table : option ptr) (key : N) (data : ptr) : wmem Z :=
  match table with
  | None => wret (-1)%Z
  | Some table =>
    if (key =? 0)%N then wret (-1)%Z
    else
      let$ length := int_at table T_length in
      let$ used := int_at table T_used in
      if (length =? used)%Z then wret (-1)%Z
      else
        let free_or k := ((k =? 0) || (k =? key))%N in
        let$ use_hash := int_at table T_use_hash in
        let$ offset :=
          (if (use_hash =? 0)%Z then wret (-1)%Z
           else
             let$ length := int_at table T_length in
             let$ seek := c_table_hash length key in
             let$ rows := c_rows table in
             let$ k := c_row_key rows seek in
             wret (if free_or k then seek else (-1)%Z)) in
        let$ offset := (if (offset =? -1)%Z then c_find_row table free_or else wret offset) in
        if (offset =? -1)%Z then wret (-1)%Z
        else
          let$ rows := c_rows table in
          let$ k := c_row_key rows offset in
          let$ _ := (if (k =? key)%N then incr table T_overwrites else wret tt) in
          let$ rows := c_rows table in
          let$ i := index offset in
          let$ _ := assign rows (2 * i + R_key) (Int (Z.of_N key)) in
          let$ copy := bytes (c_strdup data) in
          let$ rows := c_rows table in
          let$ _ := assign rows (2 * i + R_data) (Ptr copy) in
          let$ _ := incr table T_used in
          let$ max_key := int_at table T_max_key in
          let$ _ := (if (unsigned_of max_key <? key)%N then assign table T_max_key (Int (int_of key)) else wret tt) in
          let$ max_data_length := int_at table T_max_data_length in
          let$ n := bytes (c_strlen data) in
          let$ _ := (if (size_of max_data_length <? n)%N then
                       let$ n := bytes (c_strlen data) in
                       assign table T_max_data_length (Int (int_of n))
                     else wret tt) in
          wret offset
  end.

(** src/table.c:182-221 [table_get] *)
Definition c_table_get (table : option ptr) (key : N) : wmem (option ptr) :=
  match table with
  | None => wret None
  | Some table =>
    if (key =? 0)%N then wret None
    else
      let$ use_hash := int_at table T_use_hash in
      let$ offset :=
        (if (use_hash =? 0)%Z then wret (-1)%Z
         else
           let$ length := int_at table T_length in
           let$ seek := c_table_hash length key in
           let$ rows := c_rows table in
           let$ k := c_row_key rows seek in
           wret (if (k =? key)%N then seek else (-1)%Z)) in
      let$ offset :=
        (if (offset =? -1)%Z then
           let$ _ := incr table T_seeks in
           c_find_row table (fun k => (k =? key)%N)
         else wret offset) in
      if (offset =? -1)%Z then
        let$ _ := incr table T_misses in wret None
      else
        let$ _ := incr table T_hits in
        let$ rows := c_rows table in
        c_row_data rows offset
  end.

(** src/table.c:46-76 [table_resize]; table_init does not return NULL *)
Definition c_table_resize (table : option ptr) (rows : Z) (use_hash : Z) : wmem ptr :=
  let$ ret := c_table_init rows in
  let$ _ := assign ret T_use_hash (Int use_hash) in
  match table with
  | None => wret ret
  | Some table =>
    let$ default := ptr_at table T_default_translation in
    let$ _ := (match default with
               | Some default =>
                 let$ copy := bytes (c_strdup default) in
                 assign ret T_default_translation (Ptr copy)
               | None => wret tt
               end) in
    let$ overwrites := int_at table T_overwrites in
    let$ _ := assign ret T_overwrites (Int overwrites) in
    let$ _ := wwhile (fun i =>
                let$ length := int_at table T_length in
                if (i <? length)%Z then
                  let$ rows := c_rows table in
                  let$ k := c_row_key rows i in
                  let$ _ :=
                    (if (0 <? k)%N then
                       let$ data := c_row_data rows i in
                       match data with
                       | Some data => let$ _ := c_table_put (Some ret) k data in wret tt
                       | None => wret tt
                       end
                     else wret tt) in
                  wret (inl (i + 1)%Z)
                else wret (inr tt)) 0%Z in
    wret ret
  end.

(** src/table.c:78-98 [table_free] *)
Definition c_table_free (table : option ptr) : wmem unit :=
  match table with
  | None => wret tt
  | Some table =>
    let$ builtin := int_at table T_builtin in
    if (builtin =? 1)%Z then wret tt
    else
      let$ _ := wwhile (fun i =>
                  let$ length := int_at table T_length in
                  if (i <? length)%Z then
                    let$ rows := c_rows table in
                    let$ k := c_row_key rows i in
                    let$ _ :=
                      (if (0 <? k)%N then
                         let$ data := c_row_data rows i in
                         match data with Some data => bytes (free data) | None => wret tt end
                       else wret tt) in
                    wret (inl (i + 1)%Z)
                  else wret (inr tt)) 0%Z in
      let$ default := ptr_at table T_default_translation in
      let$ _ := (match default with Some default => bytes (free default) | None => wret tt end) in
      let$ rows := c_rows table in
      let$ _ := bytes (free rows) in
      bytes (free table)
  end.

(** src/table.h: [table_reset] *)
Definition c_table_reset (table : ptr) : wmem unit :=
  let$ _ := assign table T_seeks (Int 0) in
  let$ _ := assign table T_misses (Int 0) in
  assign table T_hits (Int 0).

End table.
