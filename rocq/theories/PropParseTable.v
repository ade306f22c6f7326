(** * Properties of table files (C41-C46, C53) *)

From Verif Require Import Base BaseFacts Stdio StdioFacts Table TableSpec TableProofs BuiltinTables ParseTable ParseTableSpec
  ParseTableProofs TableFiles.

Local Open Scope nat_scope.

(** For the examples. *)
Definition lines (ls : list string) : list byte := concat (map (fun l => bs l ++ [newline]) ls).
Definition looked_up (locale : string) (ls : list string) (ks : list N) : res (option (list (option str) * option str)) :=
  do t <- parse_table (bs locale) (lines ls); Ok (option_map (fun t => (map (table_get t) ks, t_default t)) t).

(** ** C41 *)

(** A file of documented lines gives exactly its entries, the last one for each code,
    and the last default. *)
Theorem C41_file_means_what_it_says :
  forall locale ls inside ds contents,
    lines_say locale false ls inside ds -> file_of ls contents ->
    ~ In 0%N (map fst (entries ds)) -> length (entries ds) <= room contents ->
    exists t, parse_table locale contents = Ok (Some t) /\
      (forall k, table_get t k = last_for k (entries ds)) /\ t_default t = default_of None ds.
Proof. exact parse_documented. Qed.
Print Assumptions C41_file_means_what_it_says.

(** Whatever a file contains, the table it gives is one that the table functions can
    build, so that everything shown of those holds of it. *)
Theorem C41_parsed_tables_are_tables :
  forall locale contents t, parse_table locale contents = Ok (Some t) -> built t.
Proof. exact parse_table_built. Qed.
Print Assumptions C41_parsed_tables_are_tables.

(** Its texts are C strings of less than 1024 bytes. *)
Theorem C41_texts_are_strings :
  forall locale contents t k d, parse_table locale contents = Ok (Some t) ->
    table_get t k = Some d \/ t_default t = Some d -> nonul d /\ length d <= 1023.
Proof.
  intros locale contents t k d P [G|G].
  - exact (proper_get t k d (parse_table_built _ _ _ P) (parse_table_proper _ _ _ P) G).
  - exact (proj2 (parse_table_proper _ _ _ P) d G).
Qed.
Print Assumptions C41_texts_are_strings.

Example C41_example :
  looked_up "C" ["# a comment"; "default _"; ""; "START"; "0x20 "" "" # blank"; "65	a"; "  0102 'b c'"; "65 A"; "67"; "End"; "68 d"]%string
    [32; 65; 66; 67; 68]%N
  = Ok (Some ([Some (bs " "); Some (bs "A"); Some (bs "b c"); None; None], Some (bs "_"))).
Proof. vm_compute. reflexivity. Qed.

(** The lines of the example are documented lines. *)
Example C41_lines :
  says (bs "C") false (bs "default _") false (Default (Some (bs "_"))) /\
  says (bs "C") true (bs "0x2e '""' # quote") true (Entry 46 [double_quote]).
Proof.
  split.
  - apply (says_default _ (bs "default") (bs "_")).
    + exists [], [x20], (bs "_"). splits; try (repeat constructor; fail); try discriminate.
      * split; [discriminate|]. repeat constructor; try discriminate; vm_compute; intuition discriminate.
      * rewrite <- (app_nil_r (bs "_")) at 2. apply token_bare; auto.
        -- split; [discriminate|]. repeat constructor; try discriminate; vm_compute; intuition discriminate.
        -- intros c r [= <- <-]. split; discriminate.
    + exists (bs "default"), []. split; [reflexivity|]. repeat constructor.
  - apply says_entry. exists [], (bs "0x2e"), [x20], (single_quote :: [double_quote] ++ single_quote :: bs " # quote").
    splits; try (repeat constructor; fail); try discriminate; try reflexivity.
    + apply num_hex; [now left|discriminate|]. exists [2; 14]%N. splits; [|repeat constructor|reflexivity].
      repeat constructor.
    + apply token_single. vm_compute. intuition discriminate.
Qed.

(** ** C42 *)

(** A file of documented lines is rejected exactly when it has an entry for code 0 or
    more entries than one per six bytes (but 500 in any case). *)
Theorem C42_when_a_file_is_rejected :
  forall locale ls inside ds contents,
    lines_say locale false ls inside ds -> file_of ls contents ->
    (parse_table locale contents = Ok None <->
     In 0%N (map fst (entries ds)) \/ room contents < length (entries ds)).
Proof. exact parse_rejects. Qed.
Print Assumptions C42_when_a_file_is_rejected.

(** With six bytes per entry line, newline included, there is always room. *)
Theorem C42_long_lines_fit :
  forall locale ls inside ds contents,
    lines_say locale false ls inside ds -> file_of ls contents ->
    Forall (fun l => forall c x, entry_line c x l -> 5 <= length l) ls ->
    ~ In 0%N (map fst (entries ds)) ->
    exists t, parse_table locale contents = Ok (Some t).
Proof.
  intros locale ls i ds contents S F L Z.
  destruct (parse_documented _ _ _ _ _ S F Z (long_lines_fit _ _ _ _ _ S F L)) as (t & E & _). eauto.
Qed.
Print Assumptions C42_long_lines_fit.

(** The same is not true of shorter lines, even when they repeat one code. *)
Lemma one_a : entry_line 49 (bs "a") (bs "49 a").
Proof.
  exists [], (bs "49"), [x20], (bs "a"). splits; try (repeat constructor; fail); try discriminate; try reflexivity.
  - apply num_decimal; [|discriminate]. exists [4; 9]%N. splits; [|repeat constructor|reflexivity]. repeat constructor.
  - rewrite <- (app_nil_r (bs "a")) at 2. apply token_bare; auto.
    + split; [discriminate|]. repeat constructor; try discriminate; vm_compute; intuition discriminate.
    + intros c r [= <- <-]. split; discriminate.
Qed.

Lemma bare_start : bare_line (bs "start") (bs "start") /\ begins_with (bs "start") (bs "start").
Proof.
  split.
  - exists [], []. splits; try (repeat constructor; fail); try reflexivity.
    split; [discriminate|]. repeat constructor; try discriminate; vm_compute; intuition discriminate.
  - exists (bs "start"), []. split; [reflexivity|]. repeat constructor.
Qed.

Theorem C42_short_lines_refuted :
  exists locale ls ds contents,
    lines_say locale false ls true ds /\ file_of ls contents /\
    (forall e, In e (entries ds) -> e = (49%N, bs "a")) /\ parse_table locale contents = Ok None.
Proof.
  pose (ls := bs "start" :: repeat (bs "49 a") 600).
  assert (S : forall n, exists ds, lines_say [] true (repeat (bs "49 a") n) true ds /\ length (entries ds) = n /\
            forall e, In e (entries ds) -> e = (49%N, bs "a")).
  { intros n. destruct (entries_inside [] (repeat (bs "49 a") n) (repeat (49%N, bs "a") n)) as (ds & L & E & _).
    - induction n; constructor; auto. apply one_a.
    - exists ds. rewrite E. splits; auto; [apply repeat_length|]. intros e I. now apply repeat_spec in I. }
  destruct (S 600) as (ds & L & N & I).
  assert (L' : lines_say [] false ls true (Nothing :: ds)).
  { destruct bare_start. econstructor; [now apply (says_start [] (bs "start"))|exact L]. }
  assert (F : file_of ls (concat (map (fun l => l ++ [newline]) ls))).
  { split; [|now left]. apply Forall_forall. intros l Il. destruct Il as [<-|Il].
    - splits; [|vm_compute; intuition discriminate|simpl; lia]. now apply nonul_dec.
    - apply repeat_spec in Il. subst l. splits; [|vm_compute; intuition discriminate|simpl; lia]. now apply nonul_dec. }
  exists [], ls, (Nothing :: ds), (concat (map (fun l => l ++ [newline]) ls)).
  split; [exact L'|split; [exact F|split; [exact I|]]].
  apply (parse_rejects _ _ _ _ _ L' F). right.
  replace (length (entries (Nothing :: ds))) with (length (entries ds)) by reflexivity. rewrite N.
  apply Nat.ltb_lt. vm_compute. reflexivity.
Qed.
Print Assumptions C42_short_lines_refuted.

Example C42_zero : looked_up "C" ["start"; "65 a"; "0 b"; "end"]%string [65]%N = Ok None.
Proof. vm_compute. reflexivity. Qed.

(** ** C43 *)

(** The last default line being one with an empty pair of quotes, the default is the
    word in front of the quotes. *)
Theorem C43_empty_default :
  forall locale ls1 ds1 w l ls2 inside ds2 contents t,
    lines_say locale false ls1 false ds1 ->
    text_line w [] l -> begins_with (bs "default") w ->
    lines_say locale false ls2 inside ds2 -> (forall d, ~ In (Default d) ds2) ->
    file_of (ls1 ++ l :: ls2) contents -> parse_table locale contents = Ok (Some t) ->
    t_default t = Some w.
Proof.
  intros locale ls1 ds1 w l ls2 i ds2 contents t S1 T B S2 N F P.
  assert (S : lines_say locale false (ls1 ++ l :: ls2) i (ds1 ++ Default (Some w) :: ds2)).
  { eapply lines_say_app; [exact S1|]. econstructor; [|exact S2]. now apply (says_default locale w []). }
  assert (D : default_of None (ds1 ++ Default (Some w) :: ds2) = Some w).
  { rewrite default_of_app. cbn [default_of].
    assert (Q : forall d, default_of d ds2 = d).
    { clear - N. induction ds2 as [|[c x|x|] ds2 IH]; intros d; simpl; auto.
      - apply IH. intros d' I. apply (N d'). now right.
      - exfalso. apply (N x). now left.
      - apply IH. intros d' I. apply (N d'). now right. }
    apply Q. }
  assert (R : parse_table locale contents <> Ok None) by congruence.
  rewrite (parse_rejects _ _ _ _ _ S F) in R.
  destruct (parse_documented _ _ _ _ _ S F) as (t' & E & _ & D'); [tauto|lia|].
  rewrite P in E. injection E as <-. now rewrite D'.
Qed.
Print Assumptions C43_empty_default.

(** An empty default is therefore not to be had. *)
Theorem C43_empty_default_refuted :
  exists contents t, contents = lines ["default """""]%string /\ parse_table (bs "C") contents = Ok (Some t) /\
    t_default t = Some (bs "default").
Proof. eexists _, _. splits; [reflexivity|vm_compute; reflexivity|reflexivity]. Qed.
Print Assumptions C43_empty_default_refuted.

(** ** C44 *)

(** A block for a language counts exactly if the language begins the name of the
    locale. *)
Theorem C44_language_blocks :
  forall locale ls1 ds1 w lang start block es wend last ls2 inside ds2 contents t,
    lines_say locale false ls1 false ds1 ->
    text_line w lang start -> begins_with (bs "start") w -> lang <> [] ->
    Forall2 (fun l e => entry_line (fst e) (snd e) l) block es ->
    first_word wend last -> same_text wend (bs "end") ->
    lines_say locale false ls2 inside ds2 ->
    file_of (ls1 ++ (start :: block ++ [last]) ++ ls2) contents -> parse_table locale contents = Ok (Some t) ->
    (begins_with lang locale -> forall k, table_get t k = last_for k (entries ds1 ++ es ++ entries ds2)) /\
    (~ begins_with lang locale -> forall k, table_get t k = last_for k (entries ds1 ++ entries ds2)) /\
    t_default t = default_of (default_of None ds1) ds2.
Proof.
  intros locale ls1 ds1 w lang start block es wend last ls2 i ds2 contents t S1 T B N F W X S2 FO P.
  destruct (block_says locale w lang start block es wend last T B N F W X) as (ds & S & D & Yes & No).
  assert (SS : lines_say locale false (ls1 ++ (start :: block ++ [last]) ++ ls2) i (ds1 ++ ds ++ ds2)).
  { eapply lines_say_app; [exact S1|]. eapply lines_say_app; eauto. }
  assert (R : parse_table locale contents <> Ok None) by congruence.
  rewrite (parse_rejects _ _ _ _ _ SS FO) in R.
  destruct (parse_documented _ _ _ _ _ SS FO) as (t' & E & G & D'); [tauto|lia|].
  rewrite P in E. injection E as <-. rewrite !entries_app in G. rewrite !default_of_app, D in D'. splits; auto.
  - intros Y k. now rewrite G, Yes.
  - intros Y k. now rewrite G, No.
Qed.
Print Assumptions C44_language_blocks.

Example C44_example :
  let f := ["start EN"; "65 a"; "end"; "start de"; "65 b"; "end"; "start 'en_US'"; "66 c"; "end"]%string in
  looked_up "en_US.UTF-8" f [65; 66]%N = Ok (Some ([Some (bs "a"); Some (bs "c")], None)) /\
  looked_up "de_DE" f [65; 66]%N = Ok (Some ([Some (bs "b"); None], None)) /\
  looked_up "C" f [65; 66]%N = Ok (Some ([None; None], None)).
Proof. vm_compute. repeat split. Qed.

(** ** C45 *)

Definition parsed (contents : list byte) : table :=
  match parse_table [] contents with Ok (Some t) => t | _ => table_init 1 end.

Definition agrees (contents : list byte) (t : table) : Prop :=
  forall locale, exists t', parse_table locale contents = Ok (Some t') /\
    (forall k, table_get t' k = table_get t k) /\ t_default t' = t_default t.

Lemma agrees_by contents t :
  (forall locale, parse_table locale contents = Ok (Some (parsed contents))) -> wf t ->
  forallb (same_lookup (parsed contents) t) (row_keys (t_rows (parsed contents)) ++ row_keys (t_rows t)) = true ->
  t_default (parsed contents) = t_default t -> agrees contents t.
Proof.
  intros P W H D locale. exists (parsed contents). splits; auto. apply lookups_agree; auto.
  apply built_wf. apply (parse_table_built [] contents). apply P.
Qed.

(** Loading the shipped files gives the built-in tables, in every locale. *)
Theorem C45_shipped_tables :
  agrees safe_tbl load_builtin_safe_table /\ agrees unicode_tbl load_builtin_unicode_table.
Proof.
  split; apply agrees_by; try (apply built_wf, built_builtin; simpl; tauto); try (vm_compute; reflexivity);
    intros locale; vm_compute; reflexivity.
Qed.
Print Assumptions C45_shipped_tables.

(** Not so for the other two: there the file loader takes the notation for Unicode
    characters literally. *)
Theorem C45_shipped_tables_refuted :
  ~ agrees iso8859_1_tbl load_builtin_iso8859_1_table /\ ~ agrees cp1252_tbl load_builtin_cp1252_table.
Proof.
  split; intros H; destruct (H []) as (t & P & G & _).
  - specialize (G 0xa1%N).
    assert (Q : match parse_table [] iso8859_1_tbl with Ok (Some t) => table_get t 0xa1%N | _ => None end = Some (bs "\u00A1")) by (vm_compute; reflexivity).
    rewrite P, G in Q. vm_compute in Q. discriminate.
  - specialize (G 0x80%N).
    assert (Q : match parse_table [] cp1252_tbl with Ok (Some t) => table_get t 0x80%N | _ => None end = Some (bs "\u20AC")) by (vm_compute; reflexivity).
    rewrite P, G in Q. vm_compute in Q. discriminate.
Qed.
Print Assumptions C45_shipped_tables_refuted.

(** ** C46 *)

(** Whatever the file contains, it is read without leaving the buffers. *)
Theorem C46_parsing_is_safe :
  forall locale contents, exists o, parse_table locale contents = Ok o.
Proof. exact parse_table_total. Qed.
Print Assumptions C46_parsing_is_safe.

Example C46_example :
  looked_up "C" ["start"; "+65 a"; "66b"; "0x 0"; "-1 c"; "0x43 'd"]%string [65; 66; 67]%N = Ok None /\
  looked_up "C" ["start"; "+65 a"; "66b"; "-1 c"; "0x43 'd"]%string [65; 66; 67]%N
  = Ok (Some ([Some (bs "a"); Some (bs "b"); Some (bs "d" ++ [newline])], None)).
Proof. vm_compute. split; reflexivity. Qed.

(** ** C53 *)

Lemma loop_step fuel locale contents st b rest st' :
  contents <> [] -> fgets_bytes 1023 contents = (b, rest) -> parse_table_line locale (cstr b) st = Ok (Some st') ->
  parse_table_loop (S fuel) locale contents st = parse_table_loop fuel locale rest st'.
Proof.
  intros N F P. cbn [parse_table_loop]. unfold next_line. change (TABLE_BUFFER - 1) with 1023. rewrite F.
  destruct contents; [easy|]. now rewrite P.
Qed.

(** Lines beyond 1023 bytes are read in pieces: what stands after the first 1023 bytes
    of a comment is a line of its own, here an entry. *)
Theorem C53_long_comments_refuted :
  forall locale comment code text l,
    length comment = 1022 -> nonul comment -> ~ In newline comment ->
    entry_line code text l -> code <> 0%N -> length l <= 1022 -> nonul l -> ~ In newline l ->
    exists t, parse_table locale (bs "start" ++ [newline] ++ ("#"%byte :: comment ++ l) ++ [newline]) = Ok (Some t) /\
      table_get t code = Some text.
Proof.
  intros locale comment code text l L U N E Z Ll Ul Nl.
  set (contents := bs "start" ++ _).
  destruct (start_table contents) as (W & R & D & G). cbv zeta in *. unfold parse_table.
  set (t0 := table_init _) in *. clearbody t0.
  assert (C : contents = bs "start" ++ newline :: ("#"%byte :: comment) ++ l ++ [newline]).
  { unfold contents. cbn [app]. now rewrite <- app_assoc. }
  assert (LC : length contents = S (S (4 + length ((("#"%byte :: comment) ++ l ++ [newline]))))) by (rewrite C; reflexivity).
  assert (RM : 500 <= room contents) by (unfold room; lia). clearbody contents.
  rewrite LC, C. destruct bare_start as [B1 B2].
  destruct (line_ok _ _ _ _ _ (says_start locale _ _ B1 B2) [newline] None t0) as (off & Q); [now right|simpl; lia|].
  cbn [effect option_map] in Q.
  rewrite (loop_step _ _ _ _ (bs "start" ++ [newline]) (("#"%byte :: comment) ++ l ++ [newline]) (mkPt true off t0)); [|discriminate| |exact Q].
  2:{ apply fgets_line; [simpl; lia|vm_compute; intuition discriminate]. }
  rewrite (loop_step _ _ _ _ ("#"%byte :: comment) (l ++ [newline]) (mkPt true off t0)); [|discriminate| |].
  2:{ assert (LL : length ("#"%byte :: comment) = 1023) by exact (f_equal Datatypes.S L). rewrite <- LL. apply fgets_full. intros [X|X]; [discriminate|auto]. }
  2:{ rewrite cstr_nonul by (apply nonul_cons; split; [discriminate|auto]). reflexivity. }
  rewrite (loop_ok locale true [l] true [Entry code text]).
  - destruct (effects [Entry code text] t0) as [t|] eqn:X.
    + exists t. split; [reflexivity|]. destruct (effects_get _ _ _ W X) as (_ & _ & G').
      rewrite G'. cbn. now rewrite N.eqb_refl.
    + apply (effects_reject _ _ W) in X. cbn in X. rewrite R in X. destruct X as [[X|[]]|X]; [congruence|lia].
  - econstructor; [now apply says_entry|constructor].
  - split; [constructor; auto|]. left. cbn [map concat]. now rewrite app_nil_r.
  - cbn [length]. rewrite !app_length. cbn [length]. lia.
Qed.
Print Assumptions C53_long_comments_refuted.
