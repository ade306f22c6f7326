(** * Proofs about the configuration in memory: what is lost *)

From Verif Require Import Base BaseFacts Stdio StdioFacts Filter Spoof ConfigSpec ConfigLex ConfigLexProofs ConfigParse ConfigProofs Prog Warnings Startup StartProofs3
  Mem MemSpec Words WordsSpec LinkedSpec CConfig CConfigProofs3 CConfigProofs5.

Local Open Scope nat_scope.

(** ** From the text to the tokens *)

Fixpoint wasted_on (src : str) (p : pstate) (c : cf_state) (ts : list token) : nat :=
  match ts with
  | [] => 0
  | t :: ts =>
    match parse_step src p c t with
    | Some (p', c') => (if is_string t then 1 else 0) + wasted_step p c t + wasted_on src p' c' ts
    | None => 0
    end
  end.

Lemma wasted_scans src input ts printed : scans input ts printed -> forall fuel p c, length input <= fuel ->
  wasted fuel src p c input = wasted_on src p c ts.
Proof.
  induction 1 as [|input sx rest r pr ts more M E S IH|input sx rest r pr t ts more M E S IH|c rest ts more X S IH]; intros fuel p s L.
  - destruct fuel; reflexivity.
  - destruct fuel as [|fuel]; [pose proof M as (-> & NE & _); destruct sx; [easy|simpl in L; lia]|].
    destruct (munch_shorter _ _ _ _ _ M L) as [(c & i & ->) LR]. cbn [wasted]. rewrite (lex_says_munch _ _ _ _ _ _ M E). now apply IH.
  - destruct fuel as [|fuel]; [pose proof M as (-> & NE & _); destruct sx; [easy|simpl in L; lia]|].
    destruct (munch_shorter _ _ _ _ _ M L) as [(c & i & ->) LR]. cbn [wasted wasted_on]. rewrite (lex_says_munch _ _ _ _ _ _ M E).
    destruct (parse_step src p s t) as [[p' s']|]; [|reflexivity]. now rewrite IH.
  - destruct fuel as [|fuel]; [simpl in L; lia|]. assert (LR : length rest <= fuel) by (simpl in L; lia).
    cbn [wasted]. rewrite (lex_says_stray _ _ X). now apply IH.
Qed.

(** ** From the tokens to the definitions *)

Fixpoint dropped (src : str) (p : pstate) (c : cf_state) (ts : list token) : nat :=
  match ts with
  | [] => 0
  | t :: ts => match parse_step src p c t with Some (p', c') => wasted_step p c t + dropped src p' c' ts | None => 0 end
  end.

Lemma wasted_strings src ts : forall p c r, play src p c ts = Some r -> wasted_on src p c ts = strings ts + dropped src p c ts.
Proof.
  induction ts as [|t ts IH]; intros p c r P; [reflexivity|]. cbn [play wasted_on dropped] in *. destruct (parse_step src p c t) as [[p' c']|]; [|discriminate].
  rewrite (IH _ _ _ P). unfold strings. cbn [filter]. destruct (is_string t); cbn [length]; lia.
Qed.

Lemma dropped_app src ts ts' : forall p c p' c', play src p c ts = Some (p', c') -> dropped src p c (ts ++ ts') = dropped src p c ts + dropped src p' c' ts'.
Proof.
  induction ts as [|t ts IH]; intros p c p' c' P; cbn [play app dropped] in *; [now injection P as -> ->|].
  destruct (parse_step src p c t) as [[p1 c1]|]; [|discriminate]. rewrite (IH _ _ _ _ P). lia.
Qed.

Lemma dropped_table c ts f src b s : takes_table c = true -> table_method (key_of c) c ts f -> dropped src (P_methods b) s (ts ++ [T_eol]) = 0.
Proof.
  intros T H. destruct H as [| |ts n A|ts n A].
  - destruct c, b; try discriminate; reflexivity.
  - destruct c, b; try discriminate; reflexivity.
  - apply a_string_one in A. destruct A as (t & -> & A). cbn [app].
    destruct c, b; try discriminate; cbn [dropped parse_step method_state key_of takes_table wasted_step]; rewrite A; destruct t; reflexivity.
  - apply a_string_one in A. destruct A as (t & -> & A). cbn [app].
    destruct c, b; try discriminate; cbn [dropped parse_step method_state key_of takes_table wasted_step]; rewrite A; destruct t; reflexivity.
Qed.

Lemma dropped_method ts f src b s : method ts f -> dropped src (P_methods b) s ts = 0.
Proof.
  destruct 1; try (destruct b; reflexivity).
  - eapply (dropped_table F_iso8859_1); eauto.
  - eapply (dropped_table F_utf_8); eauto.
  - eapply (dropped_table F_safe); eauto.
Qed.

Lemma dropped_methods ts fs src b s : methods ts fs -> dropped src (P_methods b) s ts = 0.
Proof.
  intros H. revert b s. induction H as [ts f M|ts fs ts' f H IH M]; intros b s; [eapply dropped_method; eauto|].
  rewrite (dropped_app _ _ _ _ _ _ _ (play_methods _ _ src b s H)), IH. eapply dropped_method; eauto.
Qed.

Lemma dropped_ignores ts ns src b s : ignores ts ns -> dropped src (P_ignores b) s ts = 0.
Proof.
  intros H. revert b s. induction H as [ts n A|ts ns ts' n H IH A]; intros b s.
  - apply a_string_one in A. destruct A as (t & -> & A). cbn [app dropped parse_step]. destruct b; cbn [dropped parse_step wasted_step]; rewrite A; destruct t; reflexivity.
  - rewrite (dropped_app _ _ _ _ _ _ _ (play_ignores _ _ src b s H)), IH. apply a_string_one in A. destruct A as (t & -> & A). cbn [app dropped parse_step wasted_step].
    rewrite A. destruct t; reflexivity.
Qed.

Definition replaced_at (d : definition) (qs : list sequence_t) : nat := match d with Sequence n _ => replaces n qs | Ignore _ => 0 end.

Lemma dropped_rule ts d src s : a_rule ts d -> dropped src P_top s ts = replaced_at d (c_sequences s).
Proof.
  intros H. destruct H as [tn n ts fs A M|ts ns I].
  - apply a_string_one in A. destruct A as (t & -> & A). cbn [app dropped parse_step]. rewrite A. cbn [dropped parse_step].
    rewrite (dropped_app _ _ _ _ _ _ _ (play_methods _ _ src false _ M)), (dropped_methods _ _ _ _ _ M). cbn [dropped parse_step wasted_step with_filters c_name c_sequences].
    destruct t; cbn; lia.
  - cbn [app dropped parse_step]. rewrite (dropped_app _ _ _ _ _ _ _ (play_ignores _ _ src false _ I)), (dropped_ignores _ _ _ _ _ I). reflexivity.
Qed.

Fixpoint overwritten (src : str) (ds : list definition) (c : cf_state) : nat :=
  match ds with
  | [] => 0
  | d :: ds => replaced_at d (c_sequences c) + overwritten src ds (define src c d)
  end.

Lemma overwritten_app src ds ds' : forall c, overwritten src (ds ++ ds') c = overwritten src ds c + overwritten src ds' (fold_left (define src) ds c).
Proof. induction ds as [|d ds IH]; intros c; cbn [app overwritten fold_left]; [reflexivity|]. rewrite IH. lia. Qed.

Lemma dropped_config ts ds src s : config_text ts ds -> c_filters s = [] -> dropped src P_top s ts = overwritten src ds s.
Proof.
  intros H F. induction H as [|ts ds ts' d H IH R]; [reflexivity|].
  destruct (play_config _ _ src s H F) as (P & _).
  rewrite (dropped_app _ _ _ _ _ _ _ P), IH, (dropped_rule _ _ _ _ R), overwritten_app. cbn. lia.
Qed.

(** ** What the definitions replace *)

Lemma defines_apart n fs ds x : x <> n -> defines x (Sequence n fs :: ds) = defines x ds.
Proof. intros E. unfold defines. cbn [existsb]. replace (str_eqb n x) with false; [reflexivity|]. symmetry. destruct (str_eqb n x) eqn:Q; [|easy]. apply str_eqb_eq in Q. congruence. Qed.

Lemma defines_same n fs ds : defines n (Sequence n fs :: ds) = true.
Proof. unfold defines. cbn [existsb]. replace (str_eqb n n) with true; [reflexivity|]. symmetry. now apply str_eqb_eq. Qed.

Lemma replaced_cons ds q qs : replaced_by ds (q :: qs) = (if defines (s_name q) ds then definition_blocks q else 0) + replaced_by ds qs.
Proof. unfold replaced_by. cbn [filter]. destruct (defines (s_name q) ds); reflexivity. Qed.

Lemma replaced_apart n fs ds qs : ~ In n (map s_name qs) -> replaced_by (Sequence n fs :: ds) qs = replaced_by ds qs.
Proof.
  induction qs as [|q qs IH]; intros I; [reflexivity|]. rewrite !replaced_cons, IH by (intro; apply I; now right).
  rewrite defines_apart; [reflexivity|]. intros E. apply I. now left.
Qed.

Lemma replaced_put n fs src ds qs : NoDup (map s_name qs) ->
  replaces n qs + replaced_by ds (put_sequence n fs src qs) = replaced_by (Sequence n fs :: ds) qs + (if defines n ds then filter_blocks fs + 1 else 0).
Proof.
  induction qs as [|q qs IH]; intros ND.
  - cbn [put_sequence]. rewrite replaced_cons. unfold replaced_by. cbn [s_name filter map list_sum fold_right replaces find]. unfold replaces. cbn [find].
    destruct (defines n ds); unfold definition_blocks; cbn [s_filters s_source given_to set_sequence]; lia.
  - cbn [map] in ND. apply NoDup_cons_iff in ND as (Nq & ND). cbn [put_sequence]. unfold replaces. cbn [find]. fold (replaces n qs).
    destruct (str_eqb (s_name q) n) eqn:E.
    + apply str_eqb_eq in E. rewrite !replaced_cons. subst n. rewrite defines_same, replaced_apart by exact Nq. cbn [set_sequence s_name].
      destruct (defines (s_name q) ds); unfold definition_blocks; cbn [s_filters s_source given_to set_sequence]; lia.
    + rewrite !replaced_cons, defines_apart; [specialize (IH ND); unfold replaces in *; lia|]. intros X. apply str_eqb_eq in X. congruence.
Qed.

Lemma put_names n fs src qs x : In x (map s_name (put_sequence n fs src qs)) -> x = n \/ In x (map s_name qs).
Proof.
  induction qs as [|q qs IH]; cbn [put_sequence]; [intros [<-|[]]; now left|]. destruct (str_eqb (s_name q) n); cbn [map In set_sequence s_name]; intros [<-|I]; auto.
  apply IH in I. tauto.
Qed.

Lemma put_distinct n fs src qs : NoDup (map s_name qs) -> NoDup (map s_name (put_sequence n fs src qs)).
Proof.
  induction qs as [|q qs IH]; intros ND; cbn [put_sequence]; [repeat constructor; auto|]. cbn [map] in ND. apply NoDup_cons_iff in ND as (Nq & ND).
  destruct (str_eqb (s_name q) n) eqn:E; cbn [map set_sequence s_name]; constructor; auto.
  intros I. apply put_names in I as [X|X]; [|easy]. apply str_eqb_eq in X. congruence.
Qed.

Lemma define_distinct src ds : forall c, NoDup (map s_name (c_sequences c)) -> NoDup (map s_name (c_sequences (fold_left (define src) ds c))).
Proof. induction ds as [|d ds IH]; intros c ND; [exact ND|]. apply IH. destruct d; [now apply put_distinct|exact ND]. Qed.

Lemma overwritten_ok src ds : forall c, NoDup (map s_name (c_sequences c)) -> overwritten src ds c = replaced_by ds (c_sequences c) + replaced_within ds.
Proof.
  induction ds as [|d ds IH]; intros c ND; cbn [overwritten].
  - unfold replaced_by. induction (c_sequences c) as [|q qs IH]; [reflexivity|]. cbn. apply IH. cbn in ND. now apply NoDup_cons_iff in ND.
  - rewrite IH by exact (define_distinct src [d] c ND). destruct d as [n fs|ns]; cbn [replaced_at define c_sequences replaced_within].
    + pose proof (replaced_put n fs src ds (c_sequences c) ND). lia.
    + reflexivity.
Qed.

Theorem wasted_ok src contents ts ds printed c : scans contents ts printed -> config_text ts ds -> c_filters c = [] -> NoDup (map s_name (c_sequences c)) ->
  wasted (length contents) src P_top c contents = strings ts + replaced_by ds (c_sequences c) + replaced_within ds.
Proof.
  intros S C F ND. rewrite (wasted_scans _ _ _ _ S _ _ _ (le_n _)). destruct (play_config _ _ src c C F) as (P & _).
  rewrite (wasted_strings _ _ _ _ _ P), (dropped_config _ _ _ _ C F), overwritten_ok by exact ND. lia.
Qed.
