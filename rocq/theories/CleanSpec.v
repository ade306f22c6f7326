(** * What the string filters are supposed to do

    Specifications in terms of bytes, code points and lists only. *)

From Verif Require Import Base Table.

Local Open Scope N_scope.

(** ** Characters *)

(** The 7-bit characters that are awkward in a shell (man detox(1), table/safe.tbl):
    control characters, blank, DEL and the punctuation below. *)
Definition shell_special : str := bs "!""$&'()*/:;<>?@[\]`{|}".

Definition difficult (c : byte) : Prop :=
  (bN c <= 32 \/ bN c = 127 \/ In c shell_special).

(** What the safe filter makes of one character. *)
Definition safe_spec (c : byte) : str :=
  if beq c "&" then bs "_and_"
  else if existsb (beq c) (bs "()[]{}") then bs "-"
  else if (bN c <=? 32) || (bN c =? 127) || existsb (beq c) (bs "!""$'*/:;<>?@\`|") then bs "_"
  else [c].

(** ** UTF-8 (RFC 3629) *)

(** Unicode scalar values. *)
Definition scalar (cp : N) : Prop := cp < 0xD800 \/ 0xE000 <= cp <= 0x10FFFF.

(** The encoding of a code point below 2^21. *)
Definition encode (cp : N) : str :=
  if cp <? 0x80 then [Nb cp]
  else if cp <? 0x800 then [Nb (0xC0 + cp / 64); Nb (0x80 + cp mod 64)]
  else if cp <? 0x10000 then
    [Nb (0xE0 + cp / 4096); Nb (0x80 + cp / 64 mod 64); Nb (0x80 + cp mod 64)]
  else [Nb (0xF0 + cp / 262144); Nb (0x80 + cp / 4096 mod 64);
        Nb (0x80 + cp / 64 mod 64); Nb (0x80 + cp mod 64)].

(** Text: a sequence of scalar values; a byte string is valid UTF-8 when it encodes
    some text. *)
Definition valid_utf8 (s : str) : Prop :=
  exists cps, Forall scalar cps /\ s = flat_map encode cps.

(** ** ISO 8859-1 and CP-1252 *)

(** The documented effect of the iso8859_1 filter on one byte. *)
Definition iso8859_1_spec (c : byte) : str :=
  let n := bN c in
  if n <? 0x80 then [c]
  else if n <? 0xA0 then bs "_"
  else if n =? 0xA0 then bs " "
  else if n =? 0xAD then bs "-"
  else encode n.

(** The Unicode consortium's mapping of the CP-1252 bytes 0x80-0x9F; 0 marks the
    five undefined bytes, which the filter documents as a dash. *)
Definition cp1252_high : list N :=
  [0x20AC; 0; 0x201A; 0x0192; 0x201E; 0x2026; 0x2020; 0x2021;
   0x02C6; 0x2030; 0x0160; 0x2039; 0x0152; 0; 0x017D; 0;
   0; 0x2018; 0x2019; 0x201C; 0x201D; 0x2022; 0x2013; 0x2014;
   0x02DC; 0x2122; 0x0161; 0x203A; 0x0153; 0; 0x017E; 0x0178].

Definition cp1252_spec (c : byte) : str :=
  let n := bN c in
  if (0x80 <=? n) && (n <? 0xA0) then
    match nth (N.to_nat (n - 0x80)) cp1252_high 0 with
    | 0 => bs "-"
    | cp => encode cp
    end
  else [c].

(** The documented effect of the two-stage legacy chain on one byte: CP-1252 and
    ISO 8859-1 both become UTF-8. *)
Definition legacy_spec (c : byte) : str :=
  if (0x80 <=? bN c) && (bN c <? 0xA0) then cp1252_spec c else iso8859_1_spec c.

(** ** CGI escapes *)

Definition hex_digit (c : byte) : option N :=
  let n := bN c in
  if (48 <=? n) && (n <=? 57) then Some (n - 48)
  else if (65 <=? n) && (n <=? 70) then Some (n - 65 + 10)
  else if (97 <=? n) && (n <=? 102) then Some (n - 97 + 10)
  else None.

(** [cgi_encodes s e]: [e] is some CGI encoding of the text [s]. *)
Inductive cgi_encodes : str -> str -> Prop :=
| cgi_nil : cgi_encodes [] []
| cgi_plain c s e :
    c <> "%"%byte -> c <> "+"%byte -> cgi_encodes s e -> cgi_encodes (c :: s) (c :: e)
| cgi_blank s e : cgi_encodes s e -> cgi_encodes (" "%byte :: s) ("+"%byte :: e)
| cgi_hex c h l a b s e :
    hex_digit h = Some a -> hex_digit l = Some b -> bN c = 16 * a + b ->
    cgi_encodes s e -> cgi_encodes (c :: s) ("%"%byte :: h :: l :: e).

(** A percent sign that does not introduce an escape. *)
Definition not_escape (r : str) : Prop :=
  match r with
  | h :: l :: _ => hex_digit h = None \/ hex_digit l = None
  | _ => True
  end.

(** The full reading of a name, malformed escapes included: the bytes the filter
    writes. *)
Inductive cgi_reads : str -> list byte -> Prop :=
| cr_nil : cgi_reads [] []
| cr_plain c r o :
    c <> "%"%byte -> c <> "+"%byte -> cgi_reads r o -> cgi_reads (c :: r) (c :: o)
| cr_plus r o : cgi_reads r o -> cgi_reads ("+"%byte :: r) (" "%byte :: o)
| cr_escape c h l a b r o :
    hex_digit h = Some a -> hex_digit l = Some b -> bN c = 16 * a + b ->
    cgi_reads r o -> cgi_reads ("%"%byte :: h :: l :: r) (c :: o)
| cr_percent r o :
    not_escape r -> cgi_reads r o -> cgi_reads ("%"%byte :: r) ("%"%byte :: o).

(** ** Separator runs *)

Definition separator (dots : bool) (c : byte) : Prop :=
  c = "-"%byte \/ c = "_"%byte \/ (dots = true /\ c = "."%byte).

(** '.' is stronger than '-', which is stronger than '_'. *)
Definition strength (c : byte) : nat :=
  if beq c "." then 2 else if beq c "-" then 1 else 0.

(** [c] stands for the run [r]. *)
Definition strongest (c : byte) (r : str) : Prop :=
  In c r /\ forall x, In x r -> (strength x <= strength c)%nat.

Definition starts_with (P : byte -> Prop) (s : str) : Prop :=
  match s with c :: _ => P c | [] => False end.

(** Every maximal run of separators becomes its strongest member. *)
Inductive runs_collapsed (dots : bool) : str -> str -> Prop :=
| rc_nil : runs_collapsed dots [] []
| rc_char c s o :
    ~ separator dots c -> runs_collapsed dots s o -> runs_collapsed dots (c :: s) (c :: o)
| rc_run r c s o :
    r <> [] -> Forall (separator dots) r -> ~ starts_with (separator dots) s ->
    strongest c r -> runs_collapsed dots s o -> runs_collapsed dots (r ++ s) (c :: o).

Definition leading_junk (c : byte) : Prop := c = "-"%byte \/ c = "_"%byte \/ c = "#"%byte.

(** [o] is [s] without its leading junk and with runs collapsed. *)
Definition wiped (dots : bool) (s o : str) : Prop :=
  exists junk body, s = junk ++ body /\ Forall leading_junk junk /\
    ~ starts_with leading_junk body /\ runs_collapsed dots body o.

(** No two neighbours satisfy [P]. *)
Inductive no_adjacent (P : byte -> Prop) : str -> Prop :=
| na_nil : no_adjacent P []
| na_one c : no_adjacent P [c]
| na_cons c d s : ~ (P c /\ P d) -> no_adjacent P (d :: s) -> no_adjacent P (c :: d :: s).

(** ** Extensions *)

Definition dot : byte := "."%byte.

(** The last dot suffix of a name, if it has a dot: [name = stem ++ ext], [ext]
    starts with the last dot. *)
Definition last_dot_suffix (name stem ext : str) : Prop :=
  name = stem ++ ext /\ exists e, ext = dot :: e /\ ~ In dot e.

(** The extension that max_length keeps. *)
Inductive kept_extension (name : str) : str -> Prop :=
| ke_none : ~ In dot name -> kept_extension name []
| ke_trailing stem : last_dot_suffix name stem [dot] -> kept_extension name []
| ke_double stem mid ext :
    (* a second dot, not the first character, at most five characters before the last *)
    last_dot_suffix name (stem ++ dot :: mid) ext -> ext <> [dot] ->
    stem <> [] -> ~ In dot mid -> (length mid <= 4)%nat ->
    kept_extension name (dot :: mid ++ ext)
| ke_single stem ext :
    last_dot_suffix name stem ext -> ext <> [dot] ->
    (* no such second dot *)
    (forall stem' mid, stem = stem' ++ dot :: mid -> stem' <> [] -> ~ In dot mid ->
       (4 < length mid)%nat) ->
    kept_extension name ext.

(** ** Lower case *)

Definition lower_spec (c : byte) : byte :=
  if (65 <=? bN c) && (bN c <=? 90) then Nb (bN c + 32) else c.

(** ** Sizes *)

(** A name that can exist in memory next to its buffer. *)
Definition in_memory (s : str) : Prop := (strlen s < 2 ^ 60)%N.

(** Sizes that do not wrap around. *)
Definition fits (t : table) (s : str) : Prop :=
  (strlen s * N.of_nat (t_maxdata t) + 1 < 2 ^ 64)%N.

(** A table whose texts leave room: at least one character in the longest entry, and
    a default no longer than it. *)
Definition roomy (t : table) : Prop :=
  (1 <= t_maxdata t)%nat /\ (forall d, t_default t = Some d -> (length d <= t_maxdata t)%nat).

(** Tables whose texts are C strings. *)
Definition text_table (t : table) : Prop :=
  (forall k d, table_get t k = Some d -> nonul d) /\ (forall d, t_default t = Some d -> nonul d).

(** ** Lookups *)

(** A char converted to an unsigned int: with signed chars the bytes from 0x80 up
    become very large numbers. *)
Definition char_code (signed : bool) (c : byte) : N :=
  if signed && (128 <=? bN c) then 0xFFFFFF00 + bN c else bN c.

(** The text for a character: its entry, else the default, else itself. *)
Definition entry_or_default (t : table) (code : N) (c : byte) : str :=
  match table_get t code, t_default t with
  | Some text, _ => text
  | None, Some dflt => dflt
  | None, None => [c]
  end.

(** The bytes that the legacy chain garbles. *)
Definition garbled (c : byte) : Prop :=
  (0x80 <= bN c < 0xA0)%N /\ ~ In (bN c) [0x81; 0x8D; 0x8F; 0x90; 0x9D]%N.
