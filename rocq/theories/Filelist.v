(** * Model of src/filelist.c *)

From Verif Require Import Base.

(** src/filelist.c:17 *)
Definition FILELIST_CHUNK : nat := 16.

(** src/detox_struct.h:27-32 [filelist_t].  [fl_slots] is the array (its length is
    [max]); slots that were never assigned are None.  int overflow of the counters
    is not modelled. *)
Record filelist := mkFilelist { fl_slots : list (option str); fl_count : nat; fl_ptr : nat }.

(** src/filelist.c:24-31; None is the NULL list *)
Definition filelist_count (l : option filelist) : nat :=
  match l with None => 0 | Some l => fl_count l end.

(** src/filelist.c:62-74.  Reading a slot that was never assigned, or beyond the
    array, is undefined. *)
Definition filelist_get (l : option filelist) : res (option str * option filelist) :=
  match l with
  | None => Ok (None, None)
  | Some l =>
    if (fl_count l =? 0)%nat then Ok (None, Some l)
    else if (fl_ptr l =? fl_count l)%nat then Ok (None, Some (mkFilelist (fl_slots l) (fl_count l) 0))
    else
      match nth_error (fl_slots l) (fl_ptr l) with
      | Some (Some f) => Ok (Some f, Some (mkFilelist (fl_slots l) (fl_count l) (S (fl_ptr l))))
      | _ => UB Uninitialised
      end
  end.

(** src/filelist.c:81-92 *)
Definition filelist_init : filelist := mkFilelist (repeat None FILELIST_CHUNK) 0 0.

Fixpoint set_slot (slots : list (option str)) (i : nat) (f : str) : option (list (option str)) :=
  match slots, i with
  | [], _ => None
  | _ :: r, O => Some (Some f :: r)
  | x :: r, S j => match set_slot r j f with Some r' => Some (x :: r') | None => None end
  end.

(** src/filelist.c:107-121: the array moves to one with 16 more (zeroed) slots; the
    first [count] entries are copied *)
Definition grown (l : filelist) : list (option str) :=
  firstn (fl_count l) (fl_slots l)
  ++ repeat None (length (fl_slots l) + FILELIST_CHUNK - length (firstn (fl_count l) (fl_slots l))).

(** src/filelist.c:100-130, 137-144 *)
Definition filelist_put (l : option filelist) (file : str) : res filelist :=
  match l with
  | None => Exit EXIT_FAILURE
  | Some l =>
    let slots := if (fl_count l =? length (fl_slots l))%nat then grown l else fl_slots l in
    match set_slot slots (fl_count l) file with
    | Some slots' => Ok (mkFilelist slots' (S (fl_count l)) 0)
    | None => UB BufferOverflow
    end
  end.

(** src/filelist.c:137-144 *)
Definition filelist_reset (l : option filelist) : option filelist :=
  match l with
  | None => None
  | Some l => Some (mkFilelist (fl_slots l) (fl_count l) 0)
  end.
