(** * Proofs about the configuration in memory: the scanner *)

From Coq Require Import Permutation.
From Verif Require Import Base BaseFacts Stdio StdioFacts Filter Spoof ConfigSpec ConfigLex ConfigLexProofs ConfigParse Prog Warnings Startup StartProofs3
  Mem MemSpec MemFacts CFiltersProofs CFileProofs Words WordsSpec WordsFacts CTableProofs CTableProofs2 CFilelist FilesSpec CFilelistProofs CConfig LinkedSpec CConfigProofs CConfigProofs2 CConfigProofs3.

Local Open Scope nat_scope.

(** The token in memory stands for the token. *)
Definition lexeme_at (s : store_t) (own : list nat) (m : nat) (t : token) (x : lexeme) : Prop :=
  match t, x with
  | T_key k, X_key k' => k = k'
  | T_open, X_open | T_close, X_close | T_eol, X_eol => True
  | T_qstring w, X_string q | T_id w, X_string q => word_in s own m q (Some w)
  | T_number n, X_number n' => n = n'
  | _, _ => False
  end.

Section scanner.

Context {al : allocator}.

Lemma raw_strdup_ok s x : fits x -> (exists message, refusal_of (s_heap s) (strlen x + 1)%N = Some message) \/
  bytes (c_raw_strdup_of x) s = done (Some (mkPtr (length (s_heap s)) 0), grow s [string_block x]).
Proof.
  intros F. destruct (refusal_of (s_heap s) (strlen x + 1)) as [message|] eqn:E; [left; eauto|right].
  unfold bytes, c_raw_strdup_of, c_strdup_of, mbind, malloc. unfold size_t, fits in *. rewrite N.mod_small by exact F. rewrite E, tbind_done.
  assert (W : mbind (c_write (mkPtr (length (s_heap s)) 0) (x ++ [NUL])) (fun _ => mret (mkPtr (length (s_heap s)) 0)) (s_heap s ++ [Some (repeat None (N.to_nat (strlen x + 1)))])
             = done (mkPtr (length (s_heap s)) 0, s_heap s ++ [string_block x])).
  { rewrite (write_step (x ++ [NUL]) _ (length (s_heap s)) (strlen x + 1)%N [] _ (malloc_building _ _)).
    rewrite wrs_fits by (unfold strlen; rewrite app_length; cbn; lia). rewrite app_nil_r.
    unfold quietly. cbn. rewrite set_last. rewrite filled_string. reflexivity. }
  unfold mbind in W. rewrite W, !tbind_done. reflexivity.
Qed.

Lemma set_string_cell (x : str) c rest : set_cell (map Some x ++ Some c :: rest) (length x) NUL = map Some x ++ Some NUL :: rest.
Proof. induction x as [|b x IH]; cbn; [reflexivity|]. now f_equal. Qed.

Lemma cstr_len x : length (cstr x) <= length x.
Proof. induction x as [|c x IH]; cbn; [lia|]. destruct (beq c NUL); cbn; lia. Qed.

Lemma nth_nonul (x : str) i : nonul x -> i < length x -> nth i x NUL <> NUL.
Proof. intros N L E. apply N. rewrite <- E. now apply nth_In. Qed.

Lemma last_split (x : str) : x <> [] -> x = firstn (length x - 1) x ++ [nth (length x - 1) x NUL].
Proof.
  induction x as [|c x IH]; [easy|]. intros _. destruct x as [|d x]; [reflexivity|]. replace (length (c :: d :: x) - 1) with (S (length (d :: x) - 1)) by (cbn; lia).
  cbn [firstn nth app]. f_equal. apply IH. discriminate.
Qed.

Lemma qstring_ok s own m text : (forall b, In b own -> there s b) -> 2 <= length text <= m -> (N.of_nat m < 2 ^ 32)%N ->
  (exists message, refusal_of (s_heap s) (strlen (cstr (tl text)) + 1)%N = Some message) \/
  (exists w, lex_qstring text = UB w /\ c_lex_qstring text s = quietly (UB w)) \/
  exists printed t x more, lex_qstring text = Ok (Lexed printed (Some t)) /\ c_lex_qstring text s = tbind (print_out printed) (fun _ => done (Some x, grow s more)) /\
    lexeme_at (grow s more) own m t x /\ live more = 1 /\ is_string t = true /\ heap_size more <= m + 1.
Proof.
  intros T L Lm. set (x := cstr (tl text)). assert (Lt : length (tl text) = length text - 1) by (destruct text; cbn; lia).
  assert (Lx : length x <= length text - 1) by (unfold x; pose proof (cstr_len (tl text)); lia).
  destruct (raw_strdup_ok s x ltac:(unfold fits, strlen; lia)) as [R|R]; [now left|right].
  set (p := mkPtr (length (s_heap s)) 0) in *. set (last := length text - 2). unfold c_lex_qstring, lex_qstring. fold x. fold last. step R. cbn [deref]. rewrite wbind_ret.
  assert (Nx : nonul x) by apply nonul_cstr.
  assert (Np : ~ In (p_block p) own) by (intros I; apply T, there_old in I; cbn in I; lia).
  assert (Ld : forall cells, load (plus p last) (s_heap s ++ [Some cells]) = match nth_error cells last with
      | Some (Some b) => done (b, s_heap s ++ [Some cells]) | Some None => quietly (UB Uninitialised) | None => quietly (UB ReadPastEnd) end).
  { intros cells. unfold load, plus. cbn [p_block p_off p]. now rewrite nth_last. }
  set (cells := (map Some x ++ [Some NUL]) : list cell). assert (Eb : string_block x = Some cells) by reflexivity.
  destruct (Nat.ltb_spec (length x) last) as [Lt1|Ge].
  - left. exists ReadPastEnd. split; [reflexivity|]. unfold Words.wbind, bytes. cbn [s_heap grow]. rewrite Eb, Ld.
    assert (En : nth_error cells last = None) by (apply nth_error_None; unfold cells; rewrite app_length, map_length; cbn; lia).
    rewrite En. reflexivity.
  - right. assert (E : nth_error cells last = Some (Some (nth last x NUL))).
    { unfold cells. destruct (Nat.eq_dec last (length x)) as [->|Ne].
      - rewrite nth_error_app2 by (rewrite map_length; lia). rewrite map_length, Nat.sub_diag. now rewrite nth_overflow by lia.
      - rewrite nth_error_app1 by (rewrite map_length; lia). rewrite nth_error_map. rewrite (nth_error_nth' x NUL) by lia. reflexivity. }
    assert (Lk : bytes (load (plus p last)) (grow s [string_block x]) = done (nth last x NUL, grow s [string_block x])).
    { unfold bytes. cbn [s_heap grow]. rewrite Eb, Ld, E. reflexivity. }
    step Lk. destruct (beq (nth last x NUL) quote) eqn:Q; cbn [negb].
    + assert (Ll : last < length x). { destruct (Nat.lt_ge_cases last (length x)) as [|G]; [easy|]. rewrite nth_overflow in Q by lia. discriminate. }
      assert (El : last = length x - 1) by lia. set (y := firstn last x).
      assert (Ly : length y = last) by (unfold y; rewrite firstn_length; lia).
      assert (Ex : x = y ++ [nth last x NUL]) by (unfold y; rewrite El; apply last_split; destruct x; [cbn in Ll; lia|discriminate]).
      assert (St : bytes (store (plus p last) NUL) (grow s [string_block x]) = done (tt, grow s [Some (map Some y ++ Some NUL :: [Some NUL])])).
      { unfold bytes, store, plus. cbn [s_heap grow p_block p_off p]. unfold string_block. rewrite nth_last.
        rewrite app_length, map_length. cbn [length]. destruct (Nat.ltb_spec (0 + last) (length x + 1)); [|lia]. rewrite tbind_done, set_last. cbn [Nat.add].
        unfold grow. do 6 f_equal. rewrite Ex at 1. rewrite map_app, <- app_assoc. cbn [map app]. rewrite <- Ly. apply set_string_cell. }
      step St. exists [], (T_qstring y), (X_string (Some p)), [Some (map Some y ++ Some NUL :: [Some NUL])]. splits; auto.
      * cbn [lexeme_at word_in]. splits; auto; [|lia]. apply (cstr_block _ _ _ [Some NUL]); [cbn [s_heap grow]; apply nth_last|].
        intros I. apply Nx. rewrite Ex. apply in_app_iff. now left.
      * rewrite size_one, app_length, map_length. cbn [length]. lia.
    + exists unterminated, (T_qstring x), (X_string (Some p)), [string_block x]. splits; auto.
      * cbn [lexeme_at word_in]. splits; auto; [|lia]. cbn [s_heap grow]. now apply string_block_at.
      * unfold string_block. rewrite size_one, app_length, map_length. cbn [length]. lia.
Qed.

(** One round. *)
Lemma lex_ok s own m input : input <> [] -> (forall b, In b own -> there s b) -> length input <= m -> (N.of_nat m < 2 ^ 32)%N ->
  (exists a text b message, input = a ++ text ++ b /\ refusal_of (s_heap s) (strlen (cstr text) + 1)%N = Some message /\ length text <= m) \/
  (exists w, lex_round_says input = UB w /\ c_lex_round input s = quietly (UB w)) \/
  exists printed t x text nl rest more, lex_round_says input = Ok (Lexed printed t, text, nl, rest) /\
    c_lex_round input s = tbind (print_out printed) (fun _ => done (x, text, nl, rest, grow s more)) /\ (exists a, input = a ++ rest) /\
    match t, x with
    | None, None => more = []
    | Some t, Some x => lexeme_at (grow s more) own m t x /\ live more = (if is_string t then 1 else 0) /\ heap_size more <= m + 1
    | _, _ => False
    end.
Proof.
  intros Ne T L Lm. unfold lex_round_says, c_lex_round. pose proof (best_munch input) as B. destruct (best_match rules input None) as [[r n]|].
  2:{ right. right. exists [], None, None, (firstn 1 input), 0%N, (tl input), []. splits; auto.
      - cbn. unfold grow, wret. rewrite app_nil_r. now destruct s.
      - exists (firstn 1 input). now destruct input. }
  destruct B as (text & rest & -> & M). pose proof (munch_match _ _ _ _ M) as MM. pose proof M as (-> & Nt & _).
  assert (E1 : firstn (length text) (text ++ rest) = text) by (rewrite firstn_app, Nat.sub_diag, firstn_all; cbn; apply app_nil_r).
  assert (E2 : skipn (length text) (text ++ rest) = rest) by (rewrite skipn_app, Nat.sub_diag, skipn_all; reflexivity).
  rewrite E1, E2. clear E1 E2. assert (Ll : length text <= m) by (rewrite app_length in L; lia).
  assert (G0 : grow s [] = s) by (unfold grow; rewrite app_nil_r; now destruct s).
  assert (Skip : forall nl : N, lex_action r text = Ok (Lexed [] None) -> (forall s0, c_lex_action r text s0 = wret None s0) ->
    exists printed t x text' nl' rest' more,
      (do l <- lex_action r text; Ok (l, text, nl, rest)) = Ok (Lexed printed t, text', nl', rest') /\
      (let$ l := c_lex_action r text in wret (l, text, nl, rest)) s = tbind (print_out printed) (fun _ => done (x, text', nl', rest', grow s more)) /\
      (exists a, text ++ rest = a ++ rest') /\
      match t, x with
      | None, None => more = []
      | Some t, Some x => lexeme_at (grow s more) own m t x /\ live more = (if is_string t then 1 else 0) /\ heap_size more <= m + 1
      | _, _ => False
      end).
  { intros nl E C. exists [], None, None, text, nl, rest, []. rewrite E, G0. splits; auto; eauto. unfold Words.wbind. rewrite C. reflexivity. }
  assert (Plain : forall (nl : N) t x, lex_action r text = Ok (Lexed [] (Some t)) -> (forall s0, c_lex_action r text s0 = wret (Some x) s0) -> lexeme_at s own m t x -> is_string t = false ->
    exists printed t x text' nl' rest' more,
      (do l <- lex_action r text; Ok (l, text, nl, rest)) = Ok (Lexed printed t, text', nl', rest') /\
      (let$ l := c_lex_action r text in wret (l, text, nl, rest)) s = tbind (print_out printed) (fun _ => done (x, text', nl', rest', grow s more)) /\
      (exists a, text ++ rest = a ++ rest') /\
      match t, x with
      | None, None => more = []
      | Some t, Some x => lexeme_at (grow s more) own m t x /\ live more = (if is_string t then 1 else 0) /\ heap_size more <= m + 1
      | _, _ => False
      end).
  { intros nl t x E C At Is. exists [], (Some t), (Some x), text, nl, rest, []. rewrite E, G0, Is. splits; auto; eauto; [unfold Words.wbind; rewrite C; reflexivity|]. cbn. lia. }
  destruct r; try (right; right; apply Skip; reflexivity).
  - right. right. eapply (Plain _ (T_key k) (X_key k)); reflexivity.
  - right. right. eapply (Plain _ T_open X_open); [reflexivity|reflexivity|exact I|reflexivity].
  - right. right. eapply (Plain _ T_close X_close); [reflexivity|reflexivity|exact I|reflexivity].
  - cbn [lex_action c_lex_action].
    assert (L2 : 2 <= length text).
    { cbn [rule_regex] in MM. apply matches_char_seq in MM. destruct MM as (q & y & -> & -> & MM). apply matches_seq in MM. destruct MM as (x & z & -> & X & Z).
      apply matches_class in Z. destruct Z as (d & -> & Z). cbn. rewrite app_length. cbn. lia. }
    destruct (qstring_ok s own m text T ltac:(lia) Lm) as [(message & R)|[(w & U1 & U2)|(printed & t & x & more & E & C & At & Lv & Is & Sz)]].
    + left. destruct text as [|c text]; [easy|]. exists [c], text, rest, message. splits; auto. cbn in Ll. lia.
    + right. left. exists w. rewrite U1. split; [reflexivity|]. unfold Words.wbind. now rewrite U2.
    + right. right. exists printed, (Some t), (Some x), text, 0%N, rest, more. rewrite E, Is. splits; auto; eauto.
      unfold Words.wbind. rewrite C. rewrite tbind_assoc. unfold tbind. cbn. destruct (print_out printed) as [? [[]| |]]; reflexivity.
  - cbn [lex_action c_lex_action]. assert (Nu : nonul text) by (destruct (rule_nonul _ _ MM) as [?|[?|?]]; [discriminate|discriminate|easy]).
    destruct (raw_strdup_ok s text ltac:(unfold fits, strlen; lia)) as [(message & R)|R].
    + left. exists [], text, rest, message. splits; auto. now rewrite cstr_nonul.
    + right. right. exists [], (Some (T_id text)), (Some (X_string (Some (mkPtr (length (s_heap s)) 0)))), text, 0%N, rest, [string_block text]. splits; auto; eauto.
      * rewrite wbind_assoc. step R. reflexivity.
      * cbn [lexeme_at word_in is_string]. splits; auto.
        -- cbn [s_heap grow]. now apply string_block_at.
        -- intros I. apply T, there_old in I. cbn in I. lia.
      * unfold string_block. rewrite size_one, app_length, map_length. cbn [length]. lia.
  - right. right. eapply (Plain _ (T_number (atoi text)) (X_number (atoi text))); reflexivity.
  - right. right. eapply (Plain _ T_eol X_eol); [reflexivity|reflexivity|exact I|reflexivity].
Qed.

End scanner.
