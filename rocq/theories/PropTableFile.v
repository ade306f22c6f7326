(** * What any file means as a table file (C75) *)

From Verif Require Import Base BaseFacts Stdio StdioFacts Table TableSpec TableProofs ParseTable ParseTableSpec
  ParseTableProofs TableFileSpec TableFileProofs PropParseTable.

Local Open Scope nat_scope.

(** Every text has exactly one meaning as a line. *)
Theorem C75_every_line :
  forall locale inside s, exists inside' d,
    means locale inside s inside' d /\
    forall i x, means locale inside s i x -> i = inside' /\ x = d.
Proof. exact one_meaning. Qed.
Print Assumptions C75_every_line.

(** For a documented line it is the documented one. *)
Theorem C75_documented_lines :
  forall locale inside l inside' d e,
    says locale inside l inside' d -> e = [] \/ e = [newline] -> means locale inside (l ++ e) inside' d.
Proof. exact says_means. Qed.
Print Assumptions C75_documented_lines.

(** Every file says exactly one thing, and loading it gives just that: a table with the
    last entry for each code and the last default, unless there is an entry for code 0
    or there are more entries than there is room for. *)
Theorem C75_every_file :
  forall locale contents, exists ds,
    file_says locale contents ds /\ (forall ds', file_says locale contents ds' -> ds' = ds) /\
    (In 0%N (map fst (entries ds)) \/ room contents < length (entries ds) -> parse_table locale contents = Ok None) /\
    (~ In 0%N (map fst (entries ds)) -> length (entries ds) <= room contents ->
     exists t, parse_table locale contents = Ok (Some t) /\
       (forall k, table_get t k = last_for k (entries ds)) /\ t_default t = default_of None ds).
Proof.
  intros locale contents. destruct (file_says_one locale contents) as (ds & S & U).
  exists ds. split; [exact S|split; [exact U|exact (parse_any locale contents ds S)]].
Qed.
Print Assumptions C75_every_file.

(** Lines that are not documented: a sign; a number that is too large; a quote that is
    not closed takes the newline; a NUL hides the rest; "0x" is 0, with which the whole
    file is given up. *)
Example C75_example :
  looked_up "C" ["starters"; "+66b"; "4294967361 a"; "-1 c"; "0x43 'd"; "end."; "68 e"; "end"; "69 f"]%string [65; 66; 67; 68; 69]%N
  = Ok (Some ([Some (bs "a"); Some (bs "b"); Some (bs "d" ++ [newline]); Some (bs "e"); None], None)) /\
  (do t <- parse_table [] (bs "start" ++ [newline] ++ bs "65" ++ [x00] ++ bs " a" ++ [newline] ++ bs "66 b" ++ [newline]);
   Ok (option_map (fun t => map (table_get t) [65; 66]%N) t)) = Ok (Some [None; Some (bs "b")]) /\
  looked_up "C" ["start"; "0x junk"]%string [0]%N = Ok None.
Proof. vm_compute. repeat split. Qed.

Example C75_line :
  means [] true (bs "4294967361 ""a" ++ [newline]) true (Entry 65 (bs "a" ++ [newline])).
Proof.
  apply (means_entry [] _ 65 double_quote (bs "a" ++ [newline]) (bs "a" ++ [newline])).
  - exists [], (bs "4294967361 ""a" ++ [newline]), 4294967361%Z, [x20]. splits; try reflexivity.
    + constructor.
    + exists 4294967361%N, (bs "4294967361 ""a" ++ [newline]). split; [|now left].
      apply (mag_decimal "4"%byte (bs "294967361")); [discriminate| |].
      * exists [4; 2; 9; 4; 9; 6; 7; 3; 6; 1]%N. splits; [|repeat constructor|reflexivity]. repeat constructor.
      * intros c r d [= <- <-] [D|D]; destruct (N.to_nat d) as [|n]; try discriminate;
          do 16 (destruct n as [|n]; try discriminate).
    + exists 4294967361%Z, 1%Z. split; [right; left|]; lia.
    + repeat constructor.
    + apply begins_iff. reflexivity.
  - lia.
  - apply (text_quoted [] double_quote (bs "a" ++ [newline]) []); [now left|discriminate| |now left].
    simpl. intuition discriminate.
Qed.
