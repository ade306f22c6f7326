(** * Proofs about the built-in configuration in memory: spoof_config_file *)

From Coq Require Import Permutation.
From Verif Require Import Base BaseFacts Stdio StdioFacts Filter Spoof ConfigSpec Prog Warnings
  Mem MemSpec MemFacts Words WordsSpec WordsFacts CTableProofs CTableProofs2 CFilelist FilesSpec CFilelistProofs CConfig LinkedSpec CConfigProofs CConfigProofs2 CConfigProofs7 CLoad CLoadSpec CLoadProofs.

Local Open Scope nat_scope.

Section spoof.

Context {al : allocator} (literal : str -> ptr) (s0 : store_t).

Notation at_ := (adr s0).
Definition filter_item (next : option ptr) (c : cleaner) (b : option ptr) (t : Z) : item := Rec 56 [Adr next; Num (cleaner_code c); Adr None; Adr b; Num t; Num 0; Adr None].
Definition sequence_item (next : option ptr) (k : nat) (f : nat) : item := Rec 32 [Adr next; Adr (Some (at_ (S k))); Adr (Some (at_ f)); Adr (Some (at_ (S (S k))))].

(** What is there before the list of files. *)
Definition spoof_items : list item :=
  [ filter_item (Some (at_ 2)) F_safe (Some (at_ 1)) 0; Text (bs "safe"); filter_item None F_wipeup None 1;
    Rec 16 [Adr (Some (at_ 4)); Adr None];
    sequence_item (Some (at_ 7)) 4 0; Text (bs "default"); Text (bs "built-in config file");
    sequence_item (Some (at_ 12)) 7 10; Text (bs "iso8859_1"); Text (bs "built-in config file");
    filter_item (Some (at_ 0)) F_iso8859_1 (Some (at_ 11)) 0; Text (bs "iso8859_1");
    sequence_item (Some (at_ 19)) 12 15; Text (bs "iso8859_1-legacy"); Text (bs "built-in config file");
    filter_item (Some (at_ 17)) F_iso8859_1 (Some (at_ 16)) 0; Text (bs "cp1252");
    filter_item (Some (at_ 0)) F_iso8859_1 (Some (at_ 18)) 0; Text (bs "iso8859_1");
    sequence_item (Some (at_ 24)) 19 22; Text (bs "utf_8"); Text (bs "built-in config file");
    filter_item (Some (at_ 0)) F_utf_8 (Some (at_ 23)) 0; Text (bs "unicode");
    sequence_item (Some (at_ 28)) 24 27; Text (bs "uncgi"); Text (bs "built-in config file");
    filter_item (Some (at_ 0)) F_uncgi None 0;
    sequence_item (Some (at_ 35)) 28 31; Text (bs "lower"); Text (bs "built-in config file");
    filter_item (Some (at_ 33)) F_safe (Some (at_ 32)) 0; Text (bs "safe");
    filter_item (Some (at_ 34)) F_lower None 0; filter_item None F_wipeup None 1;
    sequence_item (Some (at_ 40)) 35 38; Text (bs "iso8859_1-only"); Text (bs "built-in config file");
    filter_item None F_iso8859_1 (Some (at_ 39)) 0; Text (bs "iso8859_1");
    sequence_item (Some (at_ 45)) 40 43; Text (bs "cp1252-only"); Text (bs "built-in config file");
    filter_item None F_iso8859_1 (Some (at_ 44)) 0; Text (bs "cp1252");
    sequence_item (Some (at_ 50)) 45 48; Text (bs "utf_8-only"); Text (bs "built-in config file");
    filter_item None F_utf_8 (Some (at_ 49)) 0; Text (bs "unicode");
    sequence_item (Some (at_ 54)) 50 53; Text (bs "uncgi-only"); Text (bs "built-in config file");
    filter_item None F_uncgi None 0;
    sequence_item None 54 57; Text (bs "lower-only"); Text (bs "built-in config file");
    filter_item None F_lower None 0 ].

Definition spoof_room : nat := 2048.

Context (Lits : literals_in (s_heap s0) literal the_literals).

Ltac lit := apply Lits; cbn [In the_literals map]; tauto.
Ltac roomy := apply Nat.leb_le; vm_compute; reflexivity.
Ltac lay A := cbn [app length set_nth] in A; cbn [length].
Ltac sequence_ x := let p := fresh "p" in let s := fresh "s" in let A' := fresh "A" in
  match goal with A : arena s0 _ _ |- _ => 
  eapply ends_bind; [eapply (sequence_ok literal s0 spoof_room _ _ x A); [roomy|lit|reflexivity|lit]|]; intros p s (-> & A'); clear A; lay A' end.
Ltac builtin_ c x := let p := fresh "p" in let s := fresh "s" in let A' := fresh "A" in
  match goal with A : arena s0 _ _ |- _ =>
  eapply ends_bind; [eapply (builtin_filter_ok literal s0 spoof_room _ _ c x A); [roomy|lit|reflexivity]|]; intros p s (-> & A'); clear A; lay A' end.
Ltac plain_ c := let p := fresh "p" in let s := fresh "s" in let A' := fresh "A" in
  match goal with A : arena s0 _ _ |- _ =>
  eapply ends_bind; [eapply (plain_filter_ok literal s0 spoof_room _ _ c A); [roomy|discriminate]|]; intros p s (-> & A'); clear A; lay A' end.
Ltac safe_ := let p := fresh "p" in let s := fresh "s" in let A' := fresh "A" in
  match goal with A : arena s0 _ _ |- _ =>
  eapply ends_bind; [eapply (safe_filter_ok literal s0 spoof_room _ _ A); [roomy|lit]|]; intros p s (-> & A'); clear A; lay A' end.
Ltac wipeup_ := let p := fresh "p" in let s := fresh "s" in let A' := fresh "A" in
  match goal with A : arena s0 _ _ |- _ =>
  eapply ends_bind; [eapply (wipeup_filter_ok s0 spoof_room _ _ 1 A); roomy|]; intros p s (-> & A'); clear A; lay A' end.
Ltac assign_ := let E := fresh "E" in let A' := fresh "A" in
  match goal with A : arena s0 ?l ?s |- ends _ _ (Words.wbind (assign (adr s0 ?k) ?i (Ptr ?q)) _ ?s) =>
  let r := eval cbv [nth_error] in (nth_error l k) in
  match r with Some (Rec ?n ?vs) =>
  destruct (arena_assign s0 l s k n vs i (Ptr q) (Adr (Some q)) A eq_refl ltac:(apply Nat.ltb_lt; reflexivity) ltac:(cbn; eauto)) as (E & A'); step E; clear E A end;
  match type of A' with arena _ _ ?s' => generalize dependent s'; intros ? A' end; unfold FT_next, SQ_next, SQ_filters, CF_sequences in A'; lay A'; cbv zeta end.

Definition after_sequences (ret : ptr) : wmem ptr :=
  let$ files := c_filelist_init in
  let$ _ := assign ret CF_files_to_ignore (Ptr files) in
  let$ files := ptr_at ret CF_files_to_ignore in
  let$ _ := c_filelist_put files (literal (bs "{arch}")) in
  wret ret.

Lemma spoof_first Q : (forall s, arena s0 spoof_items s -> ends (in_room s0 spoof_room) Q (after_sequences (at_ 3) s)) ->
  ends (in_room s0 spoof_room) Q (c_spoof_config_file literal s0).
Proof.
  intros K. unfold c_spoof_config_file. pose proof (arena_nil s0) as A.
  safe_. wipeup_. assign_. 
  match goal with A : arena s0 _ _ |- _ => eapply ends_bind; [eapply (config_ok s0 spoof_room _ _ A); roomy|]; clear A; intros ? ? (-> & A); lay A end.
  sequence_ (bs "default"). assign_. assign_.
  sequence_ (bs "iso8859_1"). assign_. builtin_ F_iso8859_1 (bs "iso8859_1"). assign_. assign_.
  sequence_ (bs "iso8859_1-legacy"). assign_. builtin_ F_iso8859_1 (bs "cp1252"). assign_. builtin_ F_iso8859_1 (bs "iso8859_1"). assign_. assign_.
  sequence_ (bs "utf_8"). assign_. builtin_ F_utf_8 (bs "unicode"). assign_. assign_.
  sequence_ (bs "uncgi"). assign_. plain_ F_uncgi. assign_. assign_.
  sequence_ (bs "lower"). assign_. safe_. assign_. plain_ F_lower. assign_. wipeup_. assign_.
  sequence_ (bs "iso8859_1-only"). assign_. builtin_ F_iso8859_1 (bs "iso8859_1"). assign_.
  sequence_ (bs "cp1252-only"). assign_. builtin_ F_iso8859_1 (bs "cp1252"). assign_.
  sequence_ (bs "utf_8-only"). assign_. builtin_ F_utf_8 (bs "unicode"). assign_.
  sequence_ (bs "uncgi-only"). assign_. plain_ F_uncgi. assign_.
  sequence_ (bs "lower-only"). assign_. plain_ F_lower. assign_.
  match goal with A : arena s0 _ _ |- _ => exact (K _ A) end.
Qed.

End spoof.
