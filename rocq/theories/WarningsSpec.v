(** * What the filters are supposed to complain about *)

From Verif Require Import Base Stdio Table CleanSpec Utf8Spec ParseTableSpec EscapeSpec Filter Prog.

(** A number in hexadecimal, with eight digits. *)
Definition eight_digits (n : N) (s : str) : Prop := digits 16 s n /\ upper_case s /\ length s = 8%nat.

(** ** The utf_8 filter *)

(** Complaint about the code point of a complete sequence.  [entry] is the table's lookup:
    what the table translates is not complained about. *)
Inductive value_remark (entry : N -> option str) (cp : N) : list str -> Prop :=
| vr_entry r : entry cp = Some r -> value_remark entry cp []
| vr_nul : entry cp = None -> cp = 0%N -> value_remark entry cp [bs "detox: warning: UTF-8 encoded NULL encountered"]
| vr_large ds : entry cp = None -> (0x10FFFF < cp)%N -> eight_digits cp ds ->
    value_remark entry cp [bs "detox: warning: unicode character 0x" ++ ds ++ bs " is invalid"]
| vr_fine : entry cp = None -> (0 < cp <= 0x10FFFF)%N -> value_remark entry cp [].

(** Reading a name from left to right, as in [utf8_read]. *)
Inductive utf8_remarks (entry : N -> option str) : str -> list str -> Prop :=
| um_nil : utf8_remarks entry [] []
| um_seq u cp s w l :
    sequence u cp -> value_remark entry cp w -> utf8_remarks entry s l -> utf8_remarks entry (u ++ s) (w ++ l)
| um_ended c conts w :
    seq_width c = Some w -> (length conts < w - 1)%nat -> Forall continuation conts ->
    utf8_remarks entry (c :: conts) [bs "detox: warning: UTF-8 sequence ended unexpectedly (null)"]
| um_cut c conts w d s l :
    seq_width c = Some w -> (length conts < w - 1)%nat -> Forall continuation conts ->
    ~ continuation d -> utf8_remarks entry (d :: s) l ->
    utf8_remarks entry (c :: conts ++ d :: s) (bs "detox: warning: UTF-8 sequence ended unexpectedly (missing con't)" :: l)
| um_bad c s l :
    seq_width c = None -> utf8_remarks entry s l ->
    utf8_remarks entry (c :: s) (bs "detox: warning: invalid encoding" :: l).

(** ** The max_length filter *)

(** It complains when it would have to cut the extension. *)
Inductive length_remarks (limit : N) (s : str) : list str -> Prop :=
| lm_short : (strlen s <= limit)%N -> length_remarks limit s []
| lm_cut ext : (limit < strlen s)%N -> kept_extension s ext -> (strlen ext < limit)%N -> length_remarks limit s []
| lm_gives_up ext : (limit < strlen s)%N -> kept_extension s ext -> (limit <= strlen ext)%N ->
    length_remarks limit s
      [bs "warning: max_length " ++ printf_d limit ++ bs " is less than required file length for '" ++ s ++ bs "'.  giving up."].

(** ** Filters and sequences *)

(** The other filters never complain. *)
Definition filter_remarks (f : filter_t) (s : str) (l : list str) : Prop :=
  match f_cleaner f, f_table f with
  | F_utf_8, Some t => utf8_remarks (table_get t) s l
  | F_max_length, _ => length_remarks (if (f_max_length f =? 0)%N then 256 else f_max_length f) s l
  | _, _ => l = []
  end.

(** Each filter gets what the one before has made of the name. *)
Inductive sequence_remarks (pf : platform) : list filter_t -> str -> list str -> Prop :=
| sm_nil s : sequence_remarks pf [] s []
| sm_cons f fs s m l1 l2 :
    filter_remarks f s l1 -> filter_run pf f (Some s) = Ok (Some m) -> sequence_remarks pf fs m l2 ->
    sequence_remarks pf (f :: fs) s (l1 ++ l2).

(** What a filter says that cannot be run at all. *)
Inductive last_words (f : filter_t) : str -> Prop :=
| lw_no_table : In (f_cleaner f) [F_iso8859_1; F_safe; F_utf_8] -> f_table f = None -> last_words f (bs "internal error")
| lw_unknown v : f_cleaner f = F_unknown v -> last_words f (bs "detox: unknown filter " ++ printf_d v).

(** A message as it is printed. *)
Definition as_line (text : str) : stream * str := (Stderr, text ++ [newline]).
