(** * Properties of chains of tables (C87) *)

From Verif Require Import Base BaseFacts Table ParseTable BuiltinTables CleanString CleanSpec Utf8Spec Filter Spoof SequenceSpec ChainSpec ChainProofs PropSequence PropParseTable.

Local Open Scope nat_scope.

(** ** C87 *)

(** If the first table has no default, a character without an entry in it is left to the
    second one; the text of an entry goes through the second one too. *)
Theorem C87_fall_through :
  forall pf f1 f2 k1 k2 t1 t2 s o, bytewise k1 -> bytewise k2 -> filter_with f1 k1 t1 -> filter_with f2 k2 t2 ->
    text_table t1 -> text_table t2 -> t_default t1 = None -> nonul s -> applied pf [f1; f2] s o ->
    o = flat_map (fun c => match entry_for pf k1 t1 c with
                           | Some x => text_becomes pf k2 t2 x
                           | None => becomes pf k2 t2 c
                           end) s.
Proof. exact fall_through. Qed.
Print Assumptions C87_fall_through.

(** If the second table leaves the texts of the first one alone, the chain is one filter with
    the entries of both, the first one's counting first. *)
Theorem C87_as_one_table :
  forall pf f1 f2 f k t1 t2 t s o r, bytewise k -> filter_with f1 k t1 -> filter_with f2 k t2 -> filter_with f k t ->
    text_table t1 -> text_table t2 -> t_default t1 = None -> joined t1 t2 t ->
    (forall n x, table_get t1 n = Some x -> text_becomes pf k t2 x = x) -> nonul s ->
    applied pf [f1; f2] s o -> filter_run pf f (Some s) = Ok (Some r) -> r = o.
Proof. exact as_one_table. Qed.
Print Assumptions C87_as_one_table.

(** With a default in the first table no character that it looks up gets to the second. *)
Theorem C87_default_ends_chain :
  forall pf f1 f2 k1 k2 t1 t2 s o d, bytewise k1 -> bytewise k2 -> filter_with f1 k1 t1 -> filter_with f2 k2 t2 ->
    text_table t1 -> text_table t2 -> t_default t1 = Some d -> nonul s -> applied pf [f1; f2] s o ->
    o = flat_map (fun c => match code_of pf k1 c with
                           | Some n => text_becomes pf k2 t2 (match table_get t1 n with Some x => x | None => d end)
                           | None => becomes pf k2 t2 c
                           end) s.
Proof. exact default_ends_chain. Qed.
Print Assumptions C87_default_ends_chain.

(** The same for utf_8, character by character. *)
Theorem C87_fall_through_utf_8 :
  forall pf f1 f2 t1 t2 us o, filter_with f1 F_utf_8 t1 -> filter_with f2 F_utf_8 t2 ->
    text_table t1 -> text_table t2 -> t_default t1 = None ->
    (forall n x, table_get t1 n = Some x -> well_formed_units x) ->
    Forall character us -> nonul (concat (map fst us)) -> applied pf [f1; f2] (concat (map fst us)) o ->
    exists parts, o = concat parts /\
      Forall2 (fun x part => match table_get t1 (snd x) with
                             | Some text => utf8_read (table_text (table_get t2) (t_default t2)) text part
                             | None => part = table_text (table_get t2) (t_default t2) (snd x) (fst x)
                             end) us parts.
Proof. exact fall_through_utf_8. Qed.
Print Assumptions C87_fall_through_utf_8.

(** The example of man detox.tbl(5): that table, then the built-in one, then wipeup, with an
    English and with a German locale; and the order of the first two exchanged. *)
Definition manual_table : list string :=
  ["# default   _"; ""; "start"; "0x09	_tab_		# comments work on lines, too"; "0x24	_dollar_	# $$$"; "0x26	_and_		# ampersand"; "end"; "";
   "start en"; "0x24	_money_		# money money"; "end"; ""; "# EOF"]%string.

Definition manual_run (locale : string) (swap : bool) (name : string) : option str :=
  match parse_table (bs locale) (concat (map (fun l => bs l ++ [x0a]) manual_table)) with
  | Ok (Some t) =>
    let custom := mkFilter F_safe None None false 0 (Some t) in
    let builtin := mkFilter F_safe None None false 0 (Some load_builtin_safe_table) in
    let fs := (if swap then [builtin; custom] else [custom; builtin]) ++ [filter_init F_wipeup] in
    match sequence_run_filters (mkPlatform true c_locale) (Some (mkSequence (bs "default") fs None)) (Some (bs name)) with Ok r => r | _ => None end
  | _ => None
  end.

Example C87_example :
  manual_run "en_US.UTF-8" false "5 $ & (x)" = Some (bs "5_money_and-x-") /\
  manual_run "de_DE.UTF-8" false "5 $ & (x)" = Some (bs "5_dollar_and-x-") /\
  manual_run "en_US.UTF-8" true "5 $ & (x)" = Some (bs "5_and-x-").
Proof. splits; vm_compute; reflexivity. Qed.

(** man detoxrc(5) *)
Example C87_manual_max_length :
  filter_run (mkPlatform true c_locale) (mkFilter F_max_length None None false 12 None) (Some (bs "this_is_my_file.txt")) = Ok (Some (bs "this_is_.txt")).
Proof. vm_compute. reflexivity. Qed.
