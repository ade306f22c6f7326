(** * Properties of listing the sequences in memory (C97) *)

From Verif Require Import Base BaseFacts Stdio Table BuiltinTables Filter Spoof ConfigLex ConfigParse ConfigLoad ConfigLoadSpec Prog Warnings File Options Startup Main
  Mem MemSpec Words WordsSpec CTable CFilelist FilesSpec CConfig LinkedSpec CLoad CLoadSpec CReview CReviewSpec COptions COptionsSpec CDump CDumpProofs CDumpProofs2
  PropLinked PropLoading PropSequence PropReview.

Local Open Scope nat_scope.

(** ** C97 *)

(** With -L, the sequence that will be marked is chosen and the sequences are listed from the
    addresses in the configuration: the text is that of the description on lists, and nothing
    is changed but members of the options and the position in the list of files to ignore, which
    is at the beginning again.  Marked is the one the address of which is in the options. *)
Theorem C97_listing :
  forall (al : allocator) literal s p c own o opts seq ign name check files,
    loaded_at s p c own -> Forall (fun q => Forall familiar (s_filters q)) (cf_sequences c) -> (Z.of_nat (length (cf_sequences c)) <= int_max)%Z ->
    cstr_at (s_heap s) (literal (bs "default")) (bs "default") ->
    content s o (option_values opts seq ign name check files) -> text_in (s_heap s) name (o_sequence_name opts) -> ~ In (p_block o) own ->
    match dump_config_file c (chosen_position (cf_sequences c) (o_sequence_name opts)) (0 <? o_verbose opts)%N with
    | Ok text => exists which ignore s', c_list_sequences literal p o s = done (text, s') /\ content s' o (option_values opts which ignore name check files) /\
        s_heap s' = s_heap s /\ same_but (p_block o :: own) s s' /\ loaded_at s' p c own
    | UB w => c_list_sequences literal p o s = quietly (UB w)
    | Exit e => c_list_sequences literal p o s = quietly (Exit e)
    end.
Proof. exact @list_in_memory. Qed.
Print Assumptions C97_listing.

(** No configuration that is loaded has a sequence without source_filename, which would be
    printed with -v. *)
Theorem C97_defined :
  forall env file c chosen verbose, snd (config_file_load_says env file) = Ok c -> exists text, dump_config_file c chosen verbose = Ok text.
Proof. exact dump_defined. Qed.
Print Assumptions C97_defined.

(** The line that is marked is that of the sequence detox would use, and no other line is. *)
Theorem C97_mark :
  forall c name,
    let plain q := [tab] ++ s_name q ++ [eol] in
    let ignored := match cf_ignore c with
                   | None | Some [] => []
                   | Some l => [eol] ++ bs "files to ignore:" ++ [eol] ++ flat_map (fun f => [tab] ++ f ++ [eol]) l
                   end in
    match sequence_choose_default (cf_sequences c) name with
    | None => dump_config_file c (chosen_position (cf_sequences c) name) false = Ok (bs "available sequences:" ++ [eol] ++ flat_map plain (cf_sequences c) ++ ignored)
    | Some q => exists before after, cf_sequences c = before ++ q :: after /\
      dump_config_file c (chosen_position (cf_sequences c) name) false =
        Ok (bs "available sequences:" ++ [eol] ++ flat_map plain before ++ ([tab] ++ s_name q ++ bs " (*)" ++ [eol]) ++ flat_map plain after ++ ignored)
    end.
Proof. exact marks_the_chosen. Qed.
Print Assumptions C97_mark.

(** ** Examples *)

(** src/detox.c:36-70 with the command line in memory *)
Definition listing_of (files : str -> file_at) (argv : list str) : list (stream * str) * res str :=
  let args := map (fun i => mkPtr (length all_literals + i) 0) (seq 0 (length argv)) in
  let t := (let$ o := c_parse_options_getopt (al := roomy) (bs "detox 2") false None args in
            let$ check := ptr_at o OP_check_config_file in
            let$ c := c_config_file_load (al := roomy) literal_in (quiet_env files) check in
            c_list_sequences literal_in c o) (literals_then argv) in
  (fst t, match snd t with Ok (a, _) => Ok a | UB w => UB w | Exit c => Exit c end).

(** The lines, with a blank for each tab *)
Definition shown (lines : list string) : str := flat_map (fun l => map (fun b => if beq b " " then tab else if beq b "~" then " "%byte else b) (bs l) ++ [eol]) lines.

Definition no_files (_ : str) : file_at := NoFile.

Example C97_example :
  listing_of no_files (map bs ["detox"; "-L"; "-s"; "uncgi"]%string) =
  ([], Ok (shown ["available~sequences:"; " default"; " iso8859_1"; " iso8859_1-legacy"; " utf_8"; " uncgi~(*)"; " lower"; " iso8859_1-only"; " cp1252-only"; " utf_8-only";
                  " uncgi-only"; " lower-only"; ""; "files~to~ignore:"; " {arch}"]%string)).
Proof. vm_compute. reflexivity. Qed.

Definition a_config (path : str) : file_at :=
  if str_eqb path (bs "/h/.detoxrc") then
    Contents (bs "sequence b { safe { filename ""t""; }; max_length { length 12; }; }; sequence a { utf_8 { builtin ""x""; }; wipeup { remove_trailing; }; }; ignore { filename ""f g""; filename ""h""; };")
  else NoFile.

Example C97_example_verbose :
  listing_of a_config (map bs ["detox"; "-Lv"]%string) =
  ([], Ok (shown ["sequence~name:~b~(*)"; " source~file:~/h/.detoxrc"; " cleaner:~safe"; "  translation~table:~t"; " cleaner:~max~length"; "  length:~12"; "";
                  "sequence~name:~a"; " source~file:~/h/.detoxrc"; " cleaner:~utf_8"; "  builtin~table:~x"; " cleaner:~wipeup"; "  remove~trailing:~yes"; "";
                  "files~to~ignore:"; " f~g"; " h"]%string)).
Proof. vm_compute. reflexivity. Qed.

(** With a name that is not there, no sequence is marked. *)
Example C97_example_no_mark :
  listing_of a_config (map bs ["detox"; "-L"; "-s"; "c"]%string) =
  ([], Ok (shown ["available~sequences:"; " b"; " a"; ""; "files~to~ignore:"; " f~g"; " h"]%string)).
Proof. vm_compute. reflexivity. Qed.
