(** * How long cleaned names can be (C103) *)

From Verif Require Import Base BaseFacts Table TableSpec TableProofs BuiltinTables CleanString CleanSpec Filter Spoof SequenceSpec SequenceProofs
  Filelist Prog ProgFacts File FileSpec FileProofs GrowthSpec GrowthProofs PropSequence.

Local Open Scope nat_scope.

(** ** C103 *)

(** Each filter multiplies the length of a name by no more than the length of its longest text. *)
Theorem C103_any_sequence :
  forall pf seq ks s o, Forall2 grows_by (s_filters seq) ks ->
    sequence_run_filters pf (Some seq) (Some s) = Ok (Some o) -> length o <= fold_right Nat.mul 1 ks * length s.
Proof. exact sequence_within. Qed.
Print Assumptions C103_any_sequence.

(** The shipped sequences make names at most so many times as long ... *)
Theorem C103_shipped :
  forall pf name k seq s o,
    In (name, k) shipped_growth -> (name = bs "lower" -> p_ctype pf = c_locale) -> shipped name seq -> nonul s -> (strlen s < 2 ^ 50)%N ->
    sequence_run_filters pf (Some seq) (Some s) = Ok (Some o) -> length o <= k * length s.
Proof. exact shipped_within. Qed.
Print Assumptions C103_shipped.

(** ... and so long they become, for some name of each length. *)
Theorem C103_attained :
  forall pf name k seq n,
    In (name, k) shipped_growth -> (In name [bs "lower"; bs "lower-only"] -> p_ctype pf = c_locale) -> shipped name seq -> (N.of_nat n < 2 ^ 50)%N ->
    exists s o, nonul s /\ length s = n /\ sequence_run_filters pf (Some seq) (Some s) = Ok (Some o) /\ length o = k * n.
Proof. exact shipped_attained. Qed.
Print Assumptions C103_attained.

(** So no rename that is asked for has a longer last component than that. *)
Theorem C103_renames :
  forall fuel o files ign tr old new next name k seq,
    In (name, k) shipped_growth -> (name = bs "lower" -> p_ctype (o_platform o) = c_locale) -> shipped name seq -> o_sequence_to_use o = Some seq ->
    trace_of (process_arguments fuel o files ign) tr (Call (Rename old new) next) -> nonul old -> (strlen old < 2 ^ 50)%N ->
    exists dir base clean, last_component old dir base /\ new = dir ++ clean /\ length clean <= k * length base.
Proof. exact renames_within. Qed.
Print Assumptions C103_renames.

(** A name that no file system with names of at most 255 bytes has room for, from one that fits easily. *)
Example C103_too_long :
  match run_shipped "default" (repeat "&"%byte 64) with Ok (Some o) => length o | _ => 0 end = 256 /\
  match run_shipped "iso8859_1-legacy" (repeat Byte.x80 52) with Ok (Some o) => length o | _ => 0 end = 260 /\
  run_shipped "default" (bs "a&&.&") = Ok (Some (bs "a_and_and.and_")).
Proof. vm_compute. auto. Qed.

Definition loud_table : table := send (new_table 5 true) [(63, bs "huh"); (33, bs "wow")]%N.

Example C103_loud :
  let seq := mkSequence (bs "x") [mkFilter F_safe None None false 0 (Some loud_table); filter_init F_uncgi; mkFilter F_wipeup None None true 0 None] None in
  Forall2 grows_by (s_filters seq) [3; 1; 1] /\
  sequence_run_filters demo_pf (Some seq) (Some (bs "a??!")) = Ok (Some (bs "ahuhhuhwow")).
Proof.
  split; [|vm_compute; reflexivity].
  constructor; [|repeat constructor]. split; [lia|]. exists loud_table. split; [reflexivity|]. split; [|intros d D; discriminate].
  intros key d G. unfold loud_table in G. rewrite table_history in G.
  cbn in G. change (Pos.to_nat 5) with 5 in G. cbn in G.
  destruct (key =? 33)%N; [|destruct (key =? 63)%N]; try discriminate; injection G as <-; cbn; lia.
Qed.
