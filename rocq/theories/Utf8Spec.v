(** * What the utf_8 filter is supposed to do *)

From Verif Require Import Base CleanSpec.

Local Open Scope N_scope.

(** Length of the sequence introduced by a byte, in the original definition of UTF-8
    with up to six bytes (RFC 2279); None for a byte that cannot start one. *)
Definition seq_width (c : byte) : option nat :=
  let n := bN c in
  if n <? 0x80 then Some 1%nat
  else if n <? 0xC0 then None
  else if n <? 0xE0 then Some 2%nat
  else if n <? 0xF0 then Some 3%nat
  else if n <? 0xF8 then Some 4%nat
  else if n <? 0xFC then Some 5%nat
  else if n <? 0xFE then Some 6%nat
  else None.

(** The value bits of a start byte. *)
Definition start_value (c : byte) : N :=
  let n := bN c in
  if n <? 0x80 then n
  else if n <? 0xE0 then n - 0xC0
  else if n <? 0xF0 then n - 0xE0
  else if n <? 0xF8 then n - 0xF0
  else if n <? 0xFC then n - 0xF8
  else n - 0xFC.

Definition continuation (c : byte) : Prop := 0x80 <= bN c < 0xC0.

(** Value of a complete sequence. *)
Definition seq_value (c : byte) (conts : str) : N :=
  fold_left (fun v b => 64 * v + (bN b - 0x80)) conts (start_value c).

(** [u] is a complete sequence for the code point [cp]; over-long forms included. *)
Inductive sequence : str -> N -> Prop :=
| sequence_intro c conts w :
    seq_width c = Some w -> length conts = (w - 1)%nat -> Forall continuation conts ->
    sequence (c :: conts) (seq_value c conts).

(** Reading a name from left to right; [text cp u] is what is written for the
    complete sequence [u] of the code point [cp]. *)
Inductive utf8_read (text : N -> str -> str) : str -> list byte -> Prop :=
| ur_nil : utf8_read text [] []
| ur_seq u cp s o :
    sequence u cp -> utf8_read text s o -> utf8_read text (u ++ s) (text cp u ++ o)
| ur_cut c conts w s o :
    seq_width c = Some w -> (length conts < w - 1)%nat -> Forall continuation conts ->
    ~ starts_with continuation s -> utf8_read text s o ->
    utf8_read text (c :: conts ++ s) ("_"%byte :: o)
| ur_bad c s o :
    seq_width c = None -> utf8_read text s o -> utf8_read text (c :: s) ("_"%byte :: o).

(** What a table makes of one complete sequence; [entry] is the table's lookup and
    [dflt] its default. *)
Definition table_text (entry : N -> option str) (dflt : option str) (cp : N) (u : str) : str :=
  match entry cp with
  | Some r => r
  | None =>
    if cp =? 0 then bs "_hidden_null_"
    else if 0x10FFFF <? cp then bs "_"
    else match dflt with Some d => d | None => u end
  end.

(** The replacements of the built-in unicode table, by Unicode block. *)
Definition unicode_spec (cp : N) : option str :=
  if cp =? 0 then None
  else if cp <? 0x20 then Some (bs "_")                              (* C0 controls *)
  else if cp <? 0x7F then Some [Nb cp]                               (* printable ASCII *)
  else if cp =? 0x7F then Some (bs "_")                              (* DEL *)
  else if cp =? 0xA0 then Some (bs " ")                              (* no-break space *)
  else if cp =? 0xAD then Some (bs "-")                              (* soft hyphen *)
  else if (0x2000 <=? cp) && (cp <=? 0x200A) then Some (bs " ")      (* spaces *)
  else if (0x200B <=? cp) && (cp <=? 0x200F) then Some []            (* zero width *)
  else if (0x2010 <=? cp) && (cp <=? 0x2015) then Some (bs "-")      (* dashes *)
  else if cp =? 0x2017 then Some (bs "_")                            (* double low line *)
  else if (0x2028 <=? cp) && (cp <=? 0x202F) then Some (bs " ")      (* separators, bidi *)
  else if cp =? 0x2044 then Some (bs "_")                            (* fraction slash *)
  else if cp =? 0x205F then Some (bs " ")                            (* mathematical space *)
  else if cp =? 0x2060 then Some []                                  (* word joiner *)
  else None.

Definition unicode_text : N -> str -> str := table_text unicode_spec None.

(** An over-long encoding of NUL: C0 80, E0 80 80, F0 80 80 80, ... *)
Definition overlong_nul (u : str) : Prop := sequence u 0 /\ (1 < length u)%nat.

Definition infix (u s : str) : Prop := exists a b, s = a ++ u ++ b.

(** A string made of complete sequences only. *)
Definition well_formed_units (s : str) : Prop :=
  exists us, s = concat us /\ Forall (fun u => exists cp, sequence u cp) us.

(** Characters the filter leaves alone. *)
Definition untouched (cp : N) : Prop :=
  unicode_spec cp = None \/ unicode_spec cp = Some (encode cp).
