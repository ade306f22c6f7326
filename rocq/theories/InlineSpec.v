(** * What inline mode is supposed to do *)

From Verif Require Import Base Stdio CleanSpec Utf8Spec Filter Prog File Inline.

(** What has been written to standard output. *)
Definition stdout_text (tr : list event) : str :=
  flat_map (fun e => match e with Ev (Print Stdout t) _ => t | _ => [] end) tr.

(** [inline_result f o contents out fin]: when the stream [f] has the given contents,
    inline mode writes exactly [out] to standard output and then ends with [fin]; and if
    it is stopped on the way, it has written a part of [out].  It only prints. *)
Definition inline_result (f : option str) (o : options_t) (contents : list byte) (out : str) (fin : prog unit) : Prop :=
  forall tr p', trace_of (parse_inline f o) (Ev (ReadStream f) (inl contents) :: tr) p' ->
    (exists more, out = stdout_text tr ++ more) /\
    match p' with
    | Call c _ => exists where_ text, c = Print where_ text
    | _ => p' = fin /\ stdout_text tr = out
    end.

(** It ends normally. *)
Definition inline_writes (f : option str) (o : options_t) (contents : list byte) (out : str) : Prop :=
  inline_result f o contents out (Ret tt).

(** It reads in front of its buffer. *)
Definition inline_underreads (f : option str) (o : options_t) (contents : list byte) (out : str) : Prop :=
  inline_result f o contents out (Stop (StopUB BufferUnderread)).

(** [l] is changed to [r]: '.' and '..' are left alone. *)
Definition cleans_to (o : options_t) (l r : str) : Prop :=
  (l = bs "." \/ l = bs "..") /\ r = l /\ o_sequence_to_use o <> None \/
  (l <> bs "." /\ l <> bs ".." /\
   sequence_run_filters (o_platform o) (o_sequence_to_use o) (Some l) = Ok (Some r)).

(** Text without newline and NUL. *)
Definition line_text (l : str) : Prop := nonul l /\ ~ In newline l.

Definition ended (l : str) : str := l ++ [newline].

(** Fewer than six bytes, all of them UTF-8 continuation bytes. *)
Definition only_continuation (l : list byte) : Prop := (length l < 6)%nat /\ Forall continuation l.

(** What the next fgets delivers: up to 1007 bytes, not beyond the first newline. *)
Definition next_read (input bytes rest : list byte) : Prop :=
  input = bytes ++ rest /\ bytes <> [] /\ (length bytes <= 1007)%nat /\
  ((exists t, bytes = t ++ [newline] /\ ~ In newline t) \/
   (~ In newline bytes /\ (length bytes = 1007%nat \/ rest = []))).

(** A piece of a line, with its newline if it has one. *)
Definition spell (p : str * bool) : str := fst p ++ (if snd p then [newline] else []).

(** [ps] are the pieces a stream is processed in; [bad] is what is left over when the
    program fails.  A line is only cut when it is too long for the buffer. *)
Definition cut_into (contents : list byte) (ps : list (str * bool)) (bad : list byte) : Prop :=
  contents = concat (map spell ps) ++ bad /\
  Forall line_text (map fst ps) /\
  Forall (fun p => spell p <> [] /\ (length (fst p) <= 1012)%nat) ps /\
  (forall a t b, ps = a ++ (t, false) :: b -> b <> [] \/ bad <> [] -> (1007 <= length t)%nat).

(** The output for pieces [ps] when their texts become [rs]. *)
Definition written (ps : list (str * bool)) (rs : list str) : str :=
  concat (map spell (combine rs (map snd ps))).
