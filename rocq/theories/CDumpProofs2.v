(** * Proofs about listing the sequences: sources, and the mark *)

From Verif Require Import Base BaseFacts Stdio Filter Spoof ConfigSpec ConfigLex ConfigParse ConfigLoad ConfigLoadSpec Prog Warnings Options Startup Main CConfigProofs2 CReviewProofs2 CDumpProofs.

Local Open Scope nat_scope.

(** ** Every sequence has a source *)

Definition sourced_sequences (qs : list sequence_t) : Prop := Forall (fun q => s_source q <> None) qs.

Lemma put_sourced name fs file qs : sourced_sequences qs -> sourced_sequences (put_sequence name fs file qs).
Proof.
  intros K. induction K as [|q qs Q K IH]; cbn [put_sequence]; [repeat constructor; discriminate|]. destruct (str_eqb (s_name q) name); constructor; auto. discriminate.
Qed.

Lemma step_sourced filename p s t p' s' : parse_step filename p s t = Some (p', s') -> sourced_sequences (c_sequences s) -> sourced_sequences (c_sequences s').
Proof.
  destruct p, t; cbn [parse_step string_token]; unfold method_state; try discriminate;
    repeat match goal with
    | |- context[match ?x with _ => _ end] => is_var x; destruct x; try discriminate
    | |- context[match ?x with _ => _ end] => destruct x; try discriminate
    end;
    intros E K; try discriminate; injection E as <- <-; auto; now apply put_sourced.
Qed.

Lemma yyparse_sourced fuel filename : forall p s line input c l, snd (yyparse_says fuel filename p s line input) = Ok (c, l) ->
  sourced_sequences (c_sequences s) -> sourced_sequences (c_sequences c).
Proof.
  induction fuel as [|fuel IH]; intros p s line input c l.
  - cbn [yyparse_says]. destruct p; cbn; try discriminate. intros E. injection E as <- <-. auto.
  - destruct input as [|b input].
    + cbn [yyparse_says]. destruct p; cbn; try discriminate. intros E. injection E as <- <-. auto.
    + cbn [yyparse_says]. destruct (lex_round_says (b :: input)) as [[[[[printed t] text] nl] rest]| |]; cbn [quietly tbind]; try discriminate.
      assert (X : forall (m : talk (cf_state * N)), snd (let% _ := print_out printed in m) = snd m) by (intros [o r]; destruct printed; reflexivity).
      match goal with |- context[let% _ := print_out printed in ?m] => specialize (X m) end.
      match goal with |- context[tbind (print_out printed) ?k] => destruct (tbind (print_out printed) k) as [o r] end. cbn [snd fst] in *. rewrite X. clear X.
      destruct t as [t|].
      * destruct (parse_step filename p s t) as [[p' s']|] eqn:E; [|cbn; discriminate]. intros F K. exact (IH _ _ _ _ _ _ F (step_sourced _ _ _ _ _ _ E K)).
      * intros F. exact (IH _ _ _ _ _ _ F).
Qed.

Definition sourced_result (r : talk (option config_t * N)) : Prop := forall c l, snd r = Ok (Some c, l) -> sourced_sequences (cf_sequences c).

Lemma parse_sourced files path line pc : (forall c, pc = Some c -> sourced_sequences (cf_sequences c)) -> sourced_result (parse_config_file_says files path line pc).
Proof.
  intros K c l. unfold parse_config_file_says. destruct (files path) as [| |contents].
  - cbn. intros E. injection E as -> <-. auto.
  - cbn. discriminate.
  - match goal with |- context[tbind ?m _] => destruct m as [o [[s' l']| |]] eqn:E end; cbn; try discriminate. intros F. injection F as <- <-. cbn [cf_sequences].
    match type of E with yyparse_says ?a ?b ?c0 ?d ?e ?f = _ => pose proof (yyparse_sourced a b c0 d e f s' l') as Y end. rewrite E in Y. cbn [snd] in Y.
    apply Y; [reflexivity|]. cbn [c_sequences]. destruct pc as [c|]; [now apply K|constructor].
Qed.

Definition sourced_config (r : talk config_t) : Prop := forall c, snd r = Ok c -> sourced_sequences (cf_sequences c).
Definition sourced_option (c : option config_t) : Prop := forall c', c = Some c' -> sourced_sequences (cf_sequences c').

Lemma sourced_bind (m : talk (option config_t * N)) k : sourced_result m -> (forall c l, sourced_option c -> sourced_config (k (c, l))) -> sourced_config (tbind m k).
Proof.
  intros M K c. destruct m as [o [[c0 l0]| |]]; cbn; try discriminate. specialize (K c0 l0). intros E. apply (K ltac:(intros c' ->; exact (M _ _ eq_refl)) c).
  now destruct (k (c0, l0)) as [o' r'].
Qed.

Lemma short_sourced files path line pc : (forall c, pc = Some c -> sourced_sequences (cf_sequences c)) -> sourced_result (parse_if_short_says files path line pc).
Proof. intros K. unfold parse_if_short_says. destruct (_ <? _)%N; [now apply parse_sourced|]. intros c l E. cbn in E. injection E as -> <-. auto. Qed.

Lemma else_sourced files path line pc : (forall c, pc = Some c -> sourced_sequences (cf_sequences c)) -> sourced_result (or_else_says files path line pc).
Proof. intros K. unfold or_else_says. destruct pc as [c0|]; [|apply parse_sourced; discriminate]. intros c l E. cbn in E. injection E as <- <-. auto. Qed.

Lemma done_sourced c0 l0 : (forall c, c0 = Some c -> sourced_sequences (cf_sequences c)) -> sourced_result (done (c0, l0)).
Proof. intros K c l E. cbn in E. injection E as -> <-. auto. Qed.

Lemma spoof_sourced : sourced_sequences (cf_sequences spoof_config_file).
Proof. repeat (constructor; [discriminate|]). constructor. Qed.

Theorem load_sourced env file c : snd (config_file_load_says env file) = Ok c -> sourced_sequences (cf_sequences c).
Proof.
  unfold config_file_load_says. destruct file as [path|].
  - pose proof (parse_sourced (e_files env) path 1%N None ltac:(discriminate)) as K. destruct (parse_config_file_says (e_files env) path 1 None) as [o [[[c0|] l0]| |]]; cbn; try discriminate.
    intros E. injection E as <-. exact (K _ _ eq_refl).
  - revert c. change (forall c, snd ?r = Ok c -> sourced_sequences (cf_sequences c)) with (sourced_config r).
    apply sourced_bind; [destruct (e_sysconfdir env); [apply short_sourced; discriminate|apply done_sourced; discriminate]|]. intros c1 l1 K1. cbv beta iota.
    apply sourced_bind; [now apply else_sourced|]. intros c2 l2 K2. cbv beta iota.
    apply sourced_bind; [now apply else_sourced|]. intros c3 l3 K3. cbv beta iota.
    apply sourced_bind; [destruct (e_getenv env (bs "HOME")); [now apply short_sourced|now apply done_sourced]|]. intros c4 l4 K4. cbv beta iota.
    apply sourced_bind; [destruct (e_getenv env (bs "XDG_CONFIG_HOME")); [now apply short_sourced|now apply done_sourced]|]. intros c5 l5 K5. cbv beta iota.
    destruct c5 as [c5|]; intros c E; cbn [done snd quietly] in E; [injection E as <-; exact (K5 _ eq_refl)|]. assert (Es : spoof_config_file = c) by congruence. rewrite <- Es. exact spoof_sourced.
Qed.

Lemma dump_sourced verbose chosen qs : sourced_sequences qs -> forall count, exists text, dump_sequences verbose chosen count qs = Ok text.
Proof.
  induction 1 as [|q qs Q K IH]; intros count; cbn [dump_sequences]; [eauto|]. destruct (IH (S count)) as (t & E). rewrite E.
  destruct verbose; [destruct (s_source q); [|easy]|]; cbn [bind]; eauto.
Qed.

Theorem dump_defined env file c chosen verbose : snd (config_file_load_says env file) = Ok c -> exists text, dump_config_file c chosen verbose = Ok text.
Proof.
  intros E. apply load_sourced in E. unfold dump_config_file. destruct (dump_sourced verbose chosen _ E 0) as (t & ->). cbn [bind]. eauto.
Qed.

(** ** The mark *)

Definition plain_line (q : sequence_t) : str := [tab] ++ s_name q ++ [eol].
Definition ignored_text (c : config_t) : str :=
  match cf_ignore c with
  | None | Some [] => []
  | Some l => [eol] ++ bs "files to ignore:" ++ [eol] ++ flat_map (fun f => [tab] ++ f ++ [eol]) l
  end.

Lemma dump_unmarked chosen qs : forall count, (forall i, chosen = Some i -> i < count \/ count + length qs <= i) -> dump_sequences false chosen count qs = Ok (flat_map plain_line qs).
Proof.
  induction qs as [|q qs IH]; intros count N; cbn [dump_sequences flat_map]; [reflexivity|]. cbn [bind]. rewrite IH.
  - cbn [bind]. assert (E : match chosen with Some i => if i =? count then bs " (*)" else [] | None => [] end = []).
    { destruct chosen as [i|]; [|reflexivity]. specialize (N i eq_refl). cbn [length] in N. destruct (Nat.eqb_spec i count); [lia|reflexivity]. }
    rewrite E. reflexivity.
  - intros i E. specialize (N i E). cbn [length] in N. lia.
Qed.

Lemma dump_marked before q after : forall count, dump_sequences false (Some (count + length before)) count (before ++ q :: after) =
  Ok (flat_map plain_line before ++ ([tab] ++ s_name q ++ bs " (*)" ++ [eol]) ++ flat_map plain_line after).
Proof.
  induction before as [|x before IH]; intros count.
  - cbn [app length dump_sequences flat_map]. rewrite Nat.add_0_r, Nat.eqb_refl. cbn [bind]. rewrite dump_unmarked; [reflexivity|]. intros i E. injection E as <-. lia.
  - cbn [app length dump_sequences flat_map]. replace (count + S (length before)) with (S count + length before) by lia.
    destruct (Nat.eqb_spec (S count + length before) count); [lia|]. cbn [bind]. rewrite IH. cbn [bind]. unfold plain_line at 2. now rewrite <- !app_assoc.
Qed.

Lemma position_splits wanted qs : match find (fun s => str_eqb (s_name s) wanted) qs with
  | None => Main.position wanted qs = None
  | Some q => exists before after, qs = before ++ q :: after /\ Main.position wanted qs = Some (length before) /\ s_name q = wanted /\ Forall (fun x => s_name x <> wanted) before
  end.
Proof.
  induction qs as [|q qs IH]; cbn [find Main.position]; [reflexivity|]. destruct (str_eqb (s_name q) wanted) eqn:E.
  - exists [], qs. splits; auto. now apply str_eqb_eq.
  - destruct (find _ qs) as [q'|]; [|now rewrite IH]. destruct IH as (before & after & -> & -> & Eq & F). exists (q :: before), after. splits; auto. constructor; auto.
    intros X. rewrite X in E. assert (str_eqb wanted wanted = true) by now apply str_eqb_eq. congruence.
Qed.

Theorem marks_the_chosen c name : match sequence_choose_default (cf_sequences c) name with
  | None => dump_config_file c (chosen_position (cf_sequences c) name) false = Ok (bs "available sequences:" ++ [eol] ++ flat_map plain_line (cf_sequences c) ++ ignored_text c)
  | Some q => exists before after, cf_sequences c = before ++ q :: after /\
    dump_config_file c (chosen_position (cf_sequences c) name) false =
      Ok (bs "available sequences:" ++ [eol] ++ flat_map plain_line before ++ ([tab] ++ s_name q ++ bs " (*)" ++ [eol]) ++ flat_map plain_line after ++ ignored_text c)
  end.
Proof.
  unfold sequence_choose_default, chosen_position, dump_config_file. fold (ignored_text c). set (wanted := match name with Some n => n | None => bs "default" end).
  pose proof (position_splits wanted (cf_sequences c)) as P. destruct (find _ (cf_sequences c)) as [q|].
  - destruct P as (before & after & -> & -> & _ & _). exists before, after. split; [reflexivity|]. pose proof (dump_marked before q after 0) as D. cbn [Nat.add] in D. rewrite D. cbn [bind]. now rewrite <- !app_assoc.
  - rewrite P. destruct name as [n|].
    + rewrite dump_unmarked by discriminate. cbn [bind]. now rewrite <- !app_assoc.
    + destruct (cf_sequences c) as [|q qs] eqn:E; [rewrite dump_unmarked by discriminate; reflexivity|]. exists [], qs. split; [reflexivity|].
      pose proof (dump_marked [] q qs 0) as D. cbn [Nat.add length app] in D. rewrite D. cbn [bind flat_map app]. now rewrite <- !app_assoc.
Qed.
