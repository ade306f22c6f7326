(** * Properties of inline mode (C30-C32, C52) *)

From Verif Require Import Base BaseFacts Stdio Table BuiltinTables CleanString CleanSpec CleanUtf8 Utf8Spec CleanStringProofs
  CleanUtf8Proofs Filter Spoof Filelist Prog ProgFacts File Inline InlineSpec InlineProofs PropClean PropSequence PropFile.

(** What a program that only prints shows, and how it ends. *)
Fixpoint shown (p : prog unit) : str * option stop :=
  match p with
  | Ret _ => ([], None)
  | Stop w => ([], Some w)
  | Call (Print Stdout t) k => let (s, e) := shown (k tt) in (t ++ s, e)
  | Call (Print Stderr t) k => shown (k tt)
  | Call _ _ => ([], Some StopFuel)
  end.

Definition inline_shown (seq : string) (contents : list byte) : str * option stop :=
  let o := mkOptions demo_pf false true true false false false 0 (seq_of seq) None None None None in
  shown (inline_loop (S (length contents)) o contents).

(** ** C30 *)

(** Lines that fit into the buffer are filtered one by one. *)
Theorem C30_line_by_line :
  forall f o ls rs last rlast,
    Forall line_text ls -> line_text last ->
    Forall (fun l => length l <= 1006)%nat ls -> (length last <= 1007)%nat ->
    Forall2 (cleans_to o) ls rs ->
    last = [] /\ rlast = [] \/ last <> [] /\ ~ only_continuation last /\ cleans_to o last rlast ->
    inline_writes f o (concat (map ended ls) ++ last) (concat (map ended rs) ++ rlast).
Proof.
  intros f o ls rs last rlast T Tl L Ll F H. apply delivers_result. apply short_lines; auto.
  intros m Lm. destruct H as [(-> & ->)|(NE & C & Cl)].
  - destruct m; [simpl in Lm; lia|]. apply delivers_end.
  - apply last_line; auto.
Qed.
Print Assumptions C30_line_by_line.

Example C30_example :
  inline_shown "default" (bs "a b" ++ [newline] ++ bs "." ++ [newline] ++ [newline] ++ bs ".." ++ [newline] ++ bs "c&d")
  = (bs "a_b" ++ [newline] ++ bs "." ++ [newline] ++ [newline] ++ bs ".." ++ [newline] ++ bs "c_and_d", None).
Proof. vm_compute. reflexivity. Qed.

(** ** C31 *)

(** Valid UTF-8 text is cut into pieces of valid UTF-8 text; every piece is filtered by
    itself. *)
Theorem C31_no_character_is_split :
  forall f o contents,
    nonul contents -> valid_utf8 contents ->
    exists ps, cut_into contents ps [] /\ Forall valid_utf8 (map fst ps) /\
      forall rs, Forall2 (cleans_to o) (map fst ps) rs -> inline_writes f o contents (written ps rs).
Proof.
  intros f o contents U V.
  destruct (pieces o (S (length contents)) contents) as (ps & bad & C & _ & H & D); auto.
  destruct (H V) as [-> Vp]. exists ps. splits; auto. intros rs F. apply delivers_result. now apply D.
Qed.
Print Assumptions C31_no_character_is_split.

(** Hence a filter that treats characters independently of each other is applied to
    whole lines, however long. *)
Theorem C31_whole_lines :
  forall f o (g : str -> str) ls last,
    (forall a b, valid_utf8 a -> valid_utf8 b -> g (a ++ b) = g a ++ g b) ->
    g (bs ".") = bs "." ->
    (forall l, line_text l -> valid_utf8 l -> (length l <= 1012)%nat ->
       sequence_run_filters (o_platform o) (o_sequence_to_use o) (Some l) = Ok (Some (g l))) ->
    Forall line_text ls -> line_text last -> Forall valid_utf8 ls -> valid_utf8 last ->
    inline_writes f o (concat (map ended ls) ++ last) (concat (map ended (map g ls)) ++ g last).
Proof.
  intros f o g ls last Hom Dot Seq T Tl V Vl.
  assert (NLv : valid_utf8 [newline]) by (exists [10%N]; split; [constructor; [left; reflexivity|constructor]|reflexivity]).
  assert (U : nonul (concat (map ended ls) ++ last)).
  { apply nonul_app. split; [|apply Tl]. clear -T. induction T as [|l ls [N _] T IH]; [intros []|].
    simpl. apply nonul_app. split; auto. unfold ended. apply nonul_app. split; auto. intros [X|[]]; discriminate. }
  assert (VV : valid_utf8 (concat (map ended ls) ++ last)).
  { apply valid_utf8_app; auto. clear -V NLv. induction V; [apply valid_utf8_nil|].
    simpl. apply valid_utf8_app; auto. unfold ended. now apply valid_utf8_app. }
  destruct (C31_no_character_is_split f o _ U VV) as (ps & C & Vp & D).
  pose proof C as (E & Tp & Lp & _). rewrite app_nil_r in E.
  rewrite <- (whole_lines g Hom ps ls last); auto.
  apply D. assert (DD : g (bs "..") = bs "..").
  { assert (Vd : valid_utf8 (bs ".")) by (exists [46%N]; split; [constructor; [left; reflexivity|constructor]|reflexivity]).
    change (bs "..") with (bs "." ++ bs ".") at 1. rewrite (Hom _ _ Vd Vd), Dot. reflexivity. }
  assert (SN : o_sequence_to_use o <> None).
  { intros X. pose proof (Seq [] (conj nonul_nil (fun f => f)) valid_utf8_nil) as Y. rewrite X in Y. discriminate Y. simpl. lia. }
  clear -Tp Lp Vp Seq Dot DD SN. induction ps as [|[t nl] ps IH]; simpl; constructor.
  - inversion Tp; subst. inversion Lp as [|? ? [_ L]]; subst. inversion Vp; subst. simpl in *.
    destruct (str_eqb t (bs ".")) eqn:E1; [apply str_eqb_eq in E1; left; subst t; auto|].
    destruct (str_eqb t (bs "..")) eqn:E2; [apply str_eqb_eq in E2; left; subst t; auto|].
    apply str_eqb_neq in E1, E2. right. auto.
  - inversion Tp; subst. inversion Lp; subst. inversion Vp; subst. apply IH; auto.
Qed.
Print Assumptions C31_whole_lines.

(** The safe filter is such a filter. *)
Example C31_safe_example :
  forall f o, o_sequence_to_use o =
      Some (mkSequence (bs "safe-only") [mkFilter F_safe None None false 0 (Some load_builtin_safe_table)] None) ->
    forall l, line_text l -> valid_utf8 l -> inline_writes f o (ended l) (ended (flat_map safe_spec l)).
Proof.
  intros f o S l T V.
  pose proof (C31_whole_lines f o (flat_map safe_spec) [l] []) as H. simpl in H. rewrite !app_nil_r in H. apply H; auto.
  - intros a b _ _. apply flat_map_app.
  - intros x [Tx _] Vx L. rewrite S. cbn [sequence_run_filters s_filters run_filters].
    unfold filter_run. cbn [f_cleaner f_table]. rewrite builtin_safe_eq; auto.
    unfold in_memory, strlen. lia.
  - split; [apply nonul_nil|auto].
  - apply valid_utf8_nil.
Qed.

(** The cut in the middle of a character is avoided: 1006 letters, then a two-byte
    character whose first byte is the last one that fits. *)
Example C31_example :
  read_piece true (repeat "a"%byte 1006 ++ [xc3; xa9; "b"; newline]%byte)
  = Ok (Some (mkPiece (repeat "a"%byte 1006 ++ [xc3; xa9]%byte) false false ["b"; newline]%byte)).
Proof. vm_compute. reflexivity. Qed.

(** ** C32 *)

(** Reading a piece goes wrong exactly when the text before the first NUL of the bytes
    delivered by fgets has no newline and is less than six continuation bytes only;
    and the only thing that goes wrong is reading in front of the buffer. *)
Theorem C32_reading_a_piece :
  forall schar input bytes rest,
    next_read input bytes rest ->
    (read_piece schar input = UB BufferUnderread <->
       ~ In newline (cstr bytes) /\ only_continuation (cstr bytes)) /\
    (forall why, read_piece schar input = UB why -> why = BufferUnderread) /\
    (forall code, read_piece schar input <> Exit code).
Proof.
  intros schar input bytes rest N.
  assert (NE : input <> []).
  { destruct N as (-> & B & _). now destruct bytes. }
  destruct (read_piece_cases schar input NE) as (b & r & N' & H).
  assert (E : (bytes, rest) = (b, r)) by (rewrite <- (next_fgets _ _ _ N), <- (next_fgets _ _ _ N'); reflexivity).
  injection E as -> ->.
  destruct H as [(t & Ec & Eb & Nt & U & R)|[(NL & C & R)|(NL & C & add & rest' & w & -> & _ & _ & R)]]; rewrite R.
  - splits; try discriminate. split; [discriminate|]. intros [X _]. exfalso. apply X. rewrite Ec. apply in_or_app. right. now left.
  - splits; try discriminate; [tauto|]. intros why [= <-]. reflexivity.
  - splits; try discriminate. split; [discriminate|]. tauto.
Qed.
Print Assumptions C32_reading_a_piece.

(** Inline mode as a whole stops abnormally only by this or in a filter. *)
Theorem C32_how_inline_mode_stops :
  forall f o contents tr w,
    trace_of (parse_inline f o) (Ev (ReadStream f) (inl contents) :: tr) (Stop w) ->
    w = StopUB BufferUnderread \/
    (exists text why, sequence_run_filters (o_platform o) (o_sequence_to_use o) text = UB why /\ w = StopUB why) \/
    (exists text code, sequence_run_filters (o_platform o) (o_sequence_to_use o) text = Exit code /\ w = StopExit code).
Proof.
  intros f o contents tr w R. unfold trace_of in R. simpl runs in R.
  destruct R as [(E & _)|(s0 & r & s1 & tr' & _ & _ & E & R)]; [discriminate|].
  assert (Er : r = inl contents).
  { apply (f_equal (hd (Ev (ReadStream f) r))) in E. simpl in E.
    assert (X : forall a b : answer (ReadStream f), Ev (ReadStream f) a = Ev (ReadStream f) b -> a = b).
    { intros a b H. change (match Ev (ReadStream f) b with Ev (ReadStream g) b => a = b | _ => True end).
      now rewrite <- H. }
    now apply X in E. }
  subst r. destruct s1. eapply (inline_stop o (S (length contents)) contents tr' w); eauto.
Qed.
Print Assumptions C32_how_inline_mode_stops.

(** After any number of ordinary lines, a line starting with NUL is fatal, and so is an
    unterminated last line of continuation bytes. *)
Theorem C32_bad_line :
  forall f o ls rs bad,
    Forall line_text ls -> Forall (fun l => length l <= 1006)%nat ls -> Forall2 (cleans_to o) ls rs ->
    (exists rest, bad = NUL :: rest) \/ (bad <> [] /\ only_continuation bad) ->
    inline_underreads f o (concat (map ended ls) ++ bad) (concat (map ended rs)).
Proof.
  intros f o ls rs bad T L F B. apply delivers_result.
  rewrite <- (app_nil_r (concat (map ended rs))). apply short_lines; auto.
  intros m Lm. apply delivers_bad; auto. destruct B as [(rest & ->)|(NE & C)]; [apply nul_line|].
  assert (Uc : forall c, In c bad -> c <> NUL /\ c <> newline).
  { intros c Ic. destruct C as [_ C]. rewrite Forall_forall in C. specialize (C c Ic). unfold continuation in C.
    split; intros ->; vm_compute in C; destruct C; congruence. }
  assert (U : nonul bad) by (intros X; now apply Uc in X).
  assert (NL : ~ In newline bad) by (intros X; now apply Uc in X).
  apply (read_bad _ bad bad []); rewrite ?(cstr_nonul _ U); auto.
  unfold next_read. rewrite app_nil_r. destruct C as [C _]. splits; auto. lia.
Qed.
Print Assumptions C32_bad_line.

Example C32_example :
  inline_shown "default" (bs "a b" ++ [newline] ++ [x80; x80]%byte) = (bs "a_b" ++ [newline], Some (StopUB BufferUnderread)) /\
  inline_shown "default" (bs "a b" ++ [newline] ++ [x80; x80; newline]%byte)
    = (bs "a_b" ++ [newline] ++ [x80; x80; newline]%byte, None).
Proof. vm_compute. auto. Qed.

(** ** C52 *)

(** Whatever the bytes, no byte of a stream without NUL is lost, duplicated or
    reordered on the way to the filters. *)
Theorem C52_every_byte_is_processed_once :
  forall f o contents,
    nonul contents ->
    exists ps bad, cut_into contents ps bad /\ (bad = [] \/ bad <> [] /\ only_continuation bad) /\
      forall rs, Forall2 (cleans_to o) (map fst ps) rs ->
        (bad = [] -> inline_writes f o contents (written ps rs)) /\
        (bad <> [] -> inline_underreads f o contents (written ps rs)).
Proof.
  intros f o contents U.
  destruct (pieces o (S (length contents)) contents) as (ps & bad & C & B & _ & D); auto.
  exists ps, bad. splits; auto. intros rs F. specialize (D rs F).
  split; intros E; apply delivers_result; destruct bad; auto; try discriminate; contradiction.
Qed.
Print Assumptions C52_every_byte_is_processed_once.

(** With a sequence without filters inline mode copies its input. *)
Theorem C52_identity_copies :
  forall f o s contents,
    o_sequence_to_use o = Some s -> s_filters s = [] -> nonul contents ->
    inline_writes f o contents contents \/
    exists good bad, contents = good ++ bad /\ only_continuation bad /\ inline_underreads f o contents good.
Proof.
  intros f o s contents S F U.
  destruct (C52_every_byte_is_processed_once f o contents U) as (ps & bad & (E & T & _) & B & D).
  assert (W : written ps (map fst ps) = concat (map spell ps)).
  { clear. unfold written. f_equal. f_equal. induction ps as [|[a b] ps IH]; [reflexivity|]. simpl. now rewrite IH. }
  destruct (D (map fst ps)) as [D1 D2].
  { clear -S F. induction ps as [|[a b] ps IH]; simpl; constructor; auto. unfold cleans_to. rewrite S.
    destruct (str_eqb a (bs ".")) eqn:E1; [apply str_eqb_eq in E1; left; splits; auto; discriminate|].
    destruct (str_eqb a (bs "..")) eqn:E2; [apply str_eqb_eq in E2; left; splits; auto; discriminate|].
    apply str_eqb_neq in E1, E2. right. splits; auto. cbn [sequence_run_filters]. rewrite F. reflexivity. }
  rewrite W in *. destruct B as [-> |[NE C]].
  - left. rewrite app_nil_r in E. rewrite E at 2. auto.
  - right. exists (concat (map spell ps)), bad. splits; auto.
Qed.
Print Assumptions C52_identity_copies.

(** Even when the push-back of 0xFF fails the byte is kept (char signed or not). *)
Example C52_example :
  read_piece true (repeat "a"%byte 1006 ++ [xe2; xff; "b"]%byte)
  = Ok (Some (mkPiece (repeat "a"%byte 1006 ++ [xe2; xff]%byte) false true ["b"]%byte)) /\
  read_piece false (repeat "a"%byte 1006 ++ [xe2; xff; "b"]%byte)
  = Ok (Some (mkPiece (repeat "a"%byte 1006 ++ [xe2]%byte) false false [xff; "b"]%byte)).
Proof. vm_compute. auto. Qed.

(** NUL bytes are another matter: what follows one on its line is dropped, newline
    included. *)
Example C52_nul_example :
  inline_shown "default" (bs "a b" ++ [x00]%byte ++ bs "c d" ++ [newline] ++ bs "e") = (bs "a_be", None).
Proof. vm_compute. reflexivity. Qed.
