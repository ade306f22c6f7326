(** * Proofs about what escape-utf-8 writes *)

From Verif Require Import Base BaseFacts Stdio Table TableSpec TableProofs BuiltinTables CleanString CleanSpec CleanUtf8 Utf8Spec
  CleanStringProofs CleanUtf8Proofs Filter Prog ProgFacts File ParseTableSpec GenBuiltin GenSpec GenProofs Inline InlineSpec
  InlineProofs FileSpec FileProofs MainSpec MainProofs PropInline Escape EscapeSpec EscapeProofs.

Local Open Scope nat_scope.

(** ** Digits *)

Lemma digit_fun c d d' : digit c d -> digit c d' -> d = d'.
Proof.
  intros H H'.
  assert (X : forall d, digit c d -> N.to_nat d < 16 /\ hex_digit c = Some (N.of_nat (N.to_nat d))).
  { clear. intros d [H|H]; remember (N.to_nat d) as n; clear Heqn;
      do 16 (destruct n as [|n]; [injection H as <-; split; [lia|reflexivity]|]); destruct n; discriminate. }
  destruct (X d H) as [_ E], (X d' H') as [_ E']. rewrite E in E'. injection E'. lia.
Qed.

Lemma digit_small c d : digit c d -> (d < 16)%N.
Proof.
  intros [H|H].
  - assert (X : N.to_nat d < length (bs "0123456789abcdef")) by (apply nth_error_Some; congruence).
    change (length (bs "0123456789abcdef")) with 16 in X. lia.
  - assert (X : N.to_nat d < length (bs "0123456789ABCDEF")) by (apply nth_error_Some; congruence).
    change (length (bs "0123456789ABCDEF")) with 16 in X. lia.
Qed.

Lemma digits_fun base s v v' : digits base s v -> digits base s v' -> v = v'.
Proof.
  intros (ds & F & _ & ->) (ds' & F' & _ & ->). f_equal.
  revert ds' F'. induction F as [|c d s ds D F IH]; intros ds' F'; inversion F'; subst; [reflexivity|].
  f_equal; [eapply digit_fun; eauto|auto].
Qed.

Lemma digits_hexadecimal base s v : digits base s v -> Forall hexadecimal s.
Proof. intros (ds & F & _). induction F; constructor; auto. eexists; eauto. Qed.

Lemma digit_chars c : In c (bs "0123456789abcdef") \/ In c (bs "0123456789ABCDEF") -> hexadecimal c.
Proof.
  intros [I|I]; apply In_nth_error in I; destruct I as (n & E); exists (N.of_nat n); [left|right]; now rewrite Nat2N.id.
Qed.

Lemma hexadecimal_chars c : hexadecimal c -> In c (bs "0123456789abcdef") \/ In c (bs "0123456789ABCDEF").
Proof. intros (d & [H|H]); [left|right]; eapply nth_error_In; eauto. Qed.

Lemma hexadecimal_printable c : hexadecimal c -> printable_ascii c /\ c <> back_slash /\ c <> quote_mark.
Proof.
  intros H. apply hexadecimal_chars in H. unfold printable_ascii.
  destruct H as [H|H]; repeat (destruct H as [<-|H]; [vm_compute; splits; congruence|]); destruct H.
Qed.

(** ** What is written is printable and can be told apart *)

Lemma simple_printable c v : simple_escape c v -> printable_ascii c /\ ~ hexadecimal c \/ In c (bs "abf").
Proof.
  intros I. unfold simple_escape in I. cbn [In] in I.
  repeat (destruct I as [I|I]; [injection I as <- <-; first [right; vm_compute; tauto|left; split; [vm_compute; split; congruence|
     intros H; apply hexadecimal_chars in H; destruct H as [H|H]; vm_compute in H; repeat (destruct H as [H|H]; [discriminate H|]); destruct H]]|]).
  destruct I.
Qed.

Lemma escapes_printable cp text : escapes cp text -> Forall printable_ascii text /\ text <> [].
Proof.
  assert (BS : printable_ascii back_slash) by (vm_compute; split; congruence).
  assert (Px : printable_ascii "x"%byte) by (vm_compute; split; congruence).
  assert (Pu : printable_ascii "u"%byte) by (vm_compute; split; congruence).
  assert (PU : printable_ascii "U"%byte) by (vm_compute; split; congruence).
  assert (D : forall s v, digits 16 s v -> Forall printable_ascii s).
  { intros s v H. apply digits_hexadecimal in H. eapply Forall_impl; [|exact H]. intros a X. now apply hexadecimal_printable. }
  intros [? [P _]|? c S|? ds _ _ _ X|? ds _ _ _ X|? ds _ _ _ X]; (split; [|discriminate]).
  - constructor; [|constructor]. unfold printable_ascii. rewrite bN_Nb; lia.
  - constructor; [exact BS|]. constructor; [|constructor]. destruct (simple_printable _ _ S) as [[Y _]|Y]; [exact Y|].
    repeat (destruct Y as [<-|Y]; [vm_compute; split; congruence|]). destruct Y.
  - apply Forall_cons; [assumption|apply Forall_cons; [assumption|eauto]].
  - apply Forall_cons; [assumption|apply Forall_cons; [assumption|eauto]].
  - apply Forall_cons; [assumption|apply Forall_cons; [assumption|eauto]].
Qed.

Lemma simple_fun c v v' : simple_escape c v -> simple_escape c v' -> v = v'.
Proof.
  unfold simple_escape. cbn [In]. intros I J.
  repeat (destruct I as [I|I]; [injection I as <- <-; repeat (destruct J as [J|J]; [try discriminate J; injection J as <-; reflexivity|]); destruct J|]).
  destruct I.
Qed.

Lemma simple_not_xuU c v : simple_escape c v -> c <> "x"%byte /\ c <> "u"%byte /\ c <> "U"%byte.
Proof.
  unfold simple_escape. cbn [In]. intros I.
  repeat (destruct I as [I|I]; [injection I as <- <-; splits; discriminate|]). destruct I.
Qed.

Lemma plain_not_bs cp : plain cp -> Nb cp <> back_slash.
Proof.
  intros [H S] E. apply S. exists x5c. replace cp with 0x5C%N; [unfold simple_escape; cbn [In]; tauto|].
  apply (f_equal bN) in E. rewrite bN_Nb in E by lia. now vm_compute in E.
Qed.

Lemma app_same_length {A} (a b c d : list A) : length a = length c -> a ++ b = c ++ d -> a = c /\ b = d.
Proof.
  revert c. induction a as [|x a IH]; intros [|y c] L E; try discriminate; [auto|].
  simpl in *. injection E as -> E. destruct (IH c) as [-> ->]; auto.
Qed.

Lemma escapes_prefix cp cp' t t' r r' : escapes cp t -> escapes cp' t' -> t ++ r = t' ++ r' -> cp = cp' /\ r = r'.
Proof.
  intros H H' E.
  destruct H as [cp P|cp c S|cp ds P L _ D|cp ds P L _ D|cp ds P L _ D];
    destruct H' as [cp' P'|cp' c' S'|cp' ds' P' L' _ D'|cp' ds' P' L' _ D'|cp' ds' P' L' _ D']; cbn [app] in E;
    try (exfalso; injection E as E _; first [now apply (plain_not_bs _ P) | now apply (plain_not_bs _ P')]);
    try (exfalso; injection E as E _; first [destruct (simple_not_xuU _ _ S) as (? & ? & ?) | destruct (simple_not_xuU _ _ S') as (? & ? & ?)]; congruence);
    try discriminate E.
  - injection E as E ->. apply (f_equal bN) in E. rewrite !bN_Nb in E by (destruct P, P'; lia). auto.
  - injection E as -> ->. split; [eapply simple_fun; eauto|reflexivity].
  - injection E as E. apply app_same_length in E; [|congruence]. destruct E as [-> ->]. split; [eapply digits_fun; eauto|reflexivity].
  - injection E as E. apply app_same_length in E; [|congruence]. destruct E as [-> ->]. split; [eapply digits_fun; eauto|reflexivity].
  - injection E as E. apply app_same_length in E; [|congruence]. destruct E as [-> ->]. split; [eapply digits_fun; eauto|reflexivity].
Qed.

Lemma escaped_injective cps cps' out : escaped_text cps out -> escaped_text cps' out -> cps = cps'.
Proof.
  intros (ts & F & ->) (ts' & F' & E). revert cps' ts' F' E.
  induction F as [|cp t cps ts H F IH]; intros cps' ts' F' E; inversion F' as [|cp' t' cps'' ts'' H' F'' ]; subst; cbn [concat] in E.
  - reflexivity.
  - destruct (escapes_printable _ _ H') as [_ X]. destruct t'; [easy|discriminate].
  - destruct (escapes_printable _ _ H) as [_ X]. destruct t; [easy|discriminate].
  - destruct (escapes_prefix _ _ _ _ _ _ H H' E) as [-> E']. f_equal. eapply IH; eauto.
Qed.

(** ** Reading the output as a string literal *)

Lemma encode_ascii cp : (cp < 0x80)%N -> encode cp = [Nb cp].
Proof. intros H. unfold encode. destruct (N.ltb_spec cp 0x80); [reflexivity|lia]. Qed.

Lemma simple_value c v : simple_escape c v -> (v < 0x80)%N /\ ~ hexadecimal (Nb v).
Proof.
  unfold simple_escape. cbn [In]. intros I.
  repeat (destruct I as [I|I]; [injection I as <- <-; split; [reflexivity|intros H; apply hexadecimal_chars in H;
    destruct H as [H|H]; vm_compute in H; repeat (destruct H as [H|H]; [discriminate H|]); destruct H]|]).
  destruct I.
Qed.

Lemma not_hexadecimal c : ~ In c (bs "0123456789abcdefABCDEF") -> ~ hexadecimal c.
Proof. intros N H. apply N. apply hexadecimal_chars in H. vm_compute in *. tauto. Qed.

Lemma backslash_not_hexadecimal : ~ hexadecimal back_slash.
Proof. apply not_hexadecimal. vm_compute. intuition discriminate. Qed.

(** The text of a character begins with a hexadecimal digit exactly when it is one. *)
Lemma escapes_head cp t r : escapes cp t -> starts_with hexadecimal (t ++ r) <-> (cp < 128)%N /\ hexadecimal (Nb cp).
Proof.
  intros H. destruct H as [cp P|cp c S|cp ds P L _ D|cp ds P L _ D|cp ds P L _ D]; cbn [app starts_with].
  - split; [|tauto]. intros X. split; [destruct P; lia|exact X].
  - split; [intros X; now apply backslash_not_hexadecimal in X|]. intros [_ X]. now apply (simple_value _ _ S) in X.
  - split; [intros X; now apply backslash_not_hexadecimal in X|]. intros [_ X]. exfalso.
    destruct P as [P _]. apply hexadecimal_printable in X. destruct X as [X _]. unfold printable_ascii in X.
    rewrite bN_Nb in X by lia. lia.
  - split; [intros X; now apply backslash_not_hexadecimal in X|]. lia.
  - split; [intros X; now apply backslash_not_hexadecimal in X|]. lia.
Qed.

Lemma hex_escaped_ascii cp : hex_escaped cp -> (0 < cp < 0x80)%N.
Proof. intros [H _]. lia. Qed.

Lemma ucn_of cp : scalar cp -> (0x80 <= cp)%N -> ~ c1 cp -> ucn cp.
Proof. unfold scalar, c1, ucn. intros. lia. Qed.

Lemma runs_on_head cp cps : runs_on (cp :: cps) <->
  (hex_escaped cp /\ match cps with d :: _ => (d < 128)%N /\ hexadecimal (Nb d) | [] => False end) \/ runs_on cps.
Proof.
  split.
  - intros (a & x & d & b & E & H & D). destruct a as [|y a].
    + injection E as -> ->. left. auto.
    + injection E as -> ->. right. exists a, x, d, b. auto.
  - intros [[H D]|(a & x & d & b & -> & H)].
    + destruct cps as [|d b]; [destruct D|]. exists [], cp, d, b. auto.
    + exists (cp :: a), x, d, b. auto.
Qed.

Lemma follows cps texts : Forall2 escapes cps texts ->
  starts_with hexadecimal (concat texts) <-> match cps with d :: _ => (d < 128)%N /\ hexadecimal (Nb d) | [] => False end.
Proof. intros [|d t cps' ts H F]; cbn [concat]; [reflexivity|]. now apply escapes_head. Qed.

Lemma literal_if cps texts : Forall scalar cps -> Forall2 escapes cps texts ->
  Forall (fun cp => ~ c1 cp) cps -> ~ runs_on cps -> string_literal (concat texts) (flat_map encode cps).
Proof.
  intros Sc F. induction F as [|cp t cps ts H F IH]; intros C R; cbn [concat flat_map]; [constructor|].
  inversion Sc as [|? ? S0 Sc']; subst. inversion C as [|? ? C0 C']; subst.
  rewrite runs_on_head in R. specialize (IH Sc' C' ltac:(tauto)). pose proof (follows _ _ F) as Fo.
  destruct H as [cp P|cp c S|cp ds P L _ D|cp ds P L _ D|cp ds P L _ D].
  - rewrite encode_ascii by (destruct P; lia). cbn [app]. apply sl_char; [| |intros E|exact IH].
    + intros E. apply P. exists x22. replace cp with 0x22%N; [unfold simple_escape; cbn [In]; tauto|].
      apply (f_equal bN) in E. rewrite bN_Nb in E by (destruct P; lia). now vm_compute in E.
    + now apply plain_not_bs.
    + apply (f_equal bN) in E. rewrite bN_Nb in E by (destruct P; lia). destruct P. vm_compute in E. lia.
  - rewrite encode_ascii by (apply (simple_value _ _ S)). cbn [app]. now apply sl_simple.
  - rewrite encode_ascii by (apply hex_escaped_ascii in P; lia). cbn [app].
    apply sl_hex; auto; [apply hex_escaped_ascii in P; lia|intros ->; discriminate|]. rewrite Fo. tauto.
  - apply (sl_name (back_slash :: "u"%byte :: ds)); [|exact IH]. constructor; auto. apply ucn_of; auto. lia.
  - apply (sl_name (back_slash :: "U"%byte :: ds)); [|exact IH]. constructor; auto. apply ucn_of; auto. lia.
Qed.

Lemma digit_octal_chars base s v : digits base s v -> s <> [] -> exists c r, s = c :: r /\ hexadecimal c.
Proof. intros H N. apply digits_hexadecimal in H. destruct H as [|c r X F]; [easy|]. eauto. Qed.

Lemma simple_not_octal c v ds v' r body : simple_escape c v -> digits 8 ds v' -> 1 <= length ds -> c :: r = ds ++ body -> False.
Proof.
  intros S (dd & F & L & _) N E. destruct F as [|x d s ds' D F]; [simpl in N; lia|]. injection E as -> _.
  inversion L as [|? ? Ld _]; subst.
  assert (X : In x (bs "01234567")).
  { destruct D as [D|D]; remember (N.to_nat d) as n; assert (n < 8) by lia; clear Heqn;
      do 8 (destruct n as [|n]; [injection D as <-; vm_compute; tauto|]); lia. }
  clear -S X. unfold simple_escape in S. cbn [In] in S.
  repeat (destruct S as [S|S]; [injection S as <- <-; vm_compute in X; repeat (destruct X as [X|X]; [discriminate X|]); destruct X|]).
  destruct S.
Qed.

Lemma letter_not_octal c ds v r body : In c (bs "xuU") -> digits 8 ds v -> 1 <= length ds -> c :: r = ds ++ body -> False.
Proof.
  intros S (dd & F & L & _) N E. destruct F as [|x d s ds' D F]; [simpl in N; lia|]. injection E as -> _.
  assert (X : hexadecimal x) by (eexists; eauto). revert X. apply not_hexadecimal.
  repeat (destruct S as [<-|S]; [vm_compute; intuition discriminate|]). destruct S.
Qed.

Lemma positional_app base a b : positional base (a ++ b) = (positional base a * base ^ N.of_nat (length b) + positional base b)%N.
Proof.
  revert a. induction b as [|x b IH]; intros a.
  - rewrite app_nil_r. change (N.of_nat (length (@nil N))) with 0%N. rewrite N.pow_0_r. unfold positional at 3. cbn [fold_left]. lia.
  - change (a ++ x :: b) with (a ++ [x] ++ b). rewrite app_assoc, IH, positional_snoc.
    change (x :: b) with ([x] ++ b) at 2. rewrite (IH [x]). cbn [length]. rewrite Nat2N.inj_succ, N.pow_succ_r'.
    replace (positional base [x]) with x by (unfold positional; cbn [fold_left]; lia). ring.
Qed.

Lemma longer_digits a b v v' : digits 16 a v -> digits 16 (a ++ b) v' -> b <> [] -> (16 * v <= v')%N.
Proof.
  intros (da & Fa & _ & ->) (dd & F & _ & ->) N.
  apply Forall2_app_inv_l in F. destruct F as (d1 & d2 & F1 & F2 & ->).
  assert (d1 = da) as ->.
  { clear -Fa F1. revert d1 F1. induction Fa as [|c d s ds D F IH]; intros d1 F1; inversion F1; subst; [reflexivity|].
    f_equal; [eapply digit_fun; eauto|auto]. }
  rewrite positional_app. destruct F2 as [|c d s ds D F2]; [easy|]. cbn [length]. rewrite Nat2N.inj_succ, N.pow_succ_r'.
  assert (1 <= 16 ^ N.of_nat (length ds))%N by (pose proof (N.pow_nonzero 16 (N.of_nat (length ds)) ltac:(lia)); lia).
  nia.
Qed.

Lemma literal_char c body text : c <> back_slash -> string_literal (c :: body) text ->
  exists text', text = c :: text' /\ string_literal body text'.
Proof.
  intros N H. inversion H as [|? ? t' _ _ _ H'| | | |n cp b' t' Nm H' E1 E2]; subst; try (exfalso; congruence); [eauto|].
  destruct Nm; cbn [app] in E1; injection E1 as E1 _; congruence.
Qed.

Lemma literal_simple c v body text : simple_escape c v -> string_literal (back_slash :: c :: body) text ->
  exists text', text = Nb v :: text' /\ string_literal body text'.
Proof.
  intros S H. pose proof (simple_not_xuU _ _ S) as (X1 & X2 & X3).
  inversion H as [|? ? t' _ B _ H'|c' v' b' t' S' H'|ds v' b' t' D V L M H' E1|ds v' b' t' D V L M H' E1|n cp b' t' Nm H' E1 E2]; subst.
  - now elim B.
  - rewrite (simple_fun _ _ _ S S'). eauto.
  - exfalso. eapply simple_not_octal; eauto. lia.
  - congruence.
  - destruct Nm; cbn [app] in E1; injection E1 as E1 _; congruence.
Qed.

Lemma literal_hex ds cp body text : length ds = 2 -> digits 16 ds cp -> (0 < cp < 0x80)%N ->
  string_literal (back_slash :: "x"%byte :: ds ++ body) (Nb cp :: text) ->
  ~ starts_with hexadecimal body /\ string_literal body text.
Proof.
  intros L D B H.
  inversion H as [|? ? t' _ Y _ H'|c' v' b' t' S' H'|ds' v' b' t' D' V L' M H' E1|ds' v' b' t' D' V L' M H' E1 E2|n cp' b' t' Nm H' E1 E2].
  - now elim Y.
  - subst. exfalso. now destruct (simple_not_xuU _ _ S') as (? & _).
  - subst. exfalso. eapply (letter_not_octal "x"%byte); [now left|eauto|lia|eauto].
  - assert (V' : v' = cp).
    { apply (f_equal bN) in E2. rewrite !bN_Nb in E2 by lia. congruence. }
    subst v' t'. clear E2.
    pose proof (digits_hexadecimal _ _ _ D) as FD.
    assert (C : (exists m, ds' = ds ++ m /\ body = m ++ b') \/ (exists c m, ds = ds' ++ c :: m /\ b' = c :: m ++ body)).
    { clear -E1. revert ds' E1. induction ds as [|x ds IH]; intros ds' E.
      - left. exists ds'. auto.
      - destruct ds' as [|y ds']; cbn [app] in E.
        + right. exists x, ds. auto.
        + injection E as -> E. destruct (IH _ E) as [(m & -> & ->)|(c & m & -> & ->)];
            [left; exists m; auto|right; exists c, m; auto]. }
    destruct C as [(m & -> & ->)|(c & m & -> & ->)].
    + destruct m as [|c m]; [cbn [app] in *; auto|]. exfalso.
      pose proof (longer_digits _ _ _ _ D D' ltac:(discriminate)). lia.
    + exfalso. apply M. cbn [starts_with]. apply Forall_app in FD. destruct FD as [_ FD]. now inversion FD.
  - exfalso. destruct Nm; discriminate E1.
Qed.

Lemma literal_name n c cp body text : (exists ds, n = back_slash :: c :: ds /\ digits 16 ds cp /\
    (c = "u"%byte /\ length ds = 4 \/ c = "U"%byte /\ length ds = 8)) ->
  string_literal (n ++ body) (encode cp ++ text) -> ucn cp /\ string_literal body text.
Proof.
  intros (ds & -> & D & C) H. cbn [app] in H.
  assert (Cx : In c (bs "xuU")) by (destruct C as [[-> _]|[-> _]]; vm_compute; tauto).
  inversion H as [|? ? t' _ Y _ H' E1 E2|c' v' b' t' S' H' E1 E2|ds' v' b' t' D' V L' M H' E1 E2|ds' v' b' t' D' V L' M H' E1 E2|n cp' b' t' Nm H' E1 E2].
  - now elim Y.
  - exfalso. destruct (simple_not_xuU _ _ S') as (? & ? & ?). destruct C as [[-> _]|[-> _]]; congruence.
  - exfalso. eapply letter_not_octal; eauto. lia.
  - exfalso. destruct C as [[-> _]|[-> _]]; discriminate.
  - destruct Nm as [ds' cp' L' D' U|ds' cp' L' D' U]; cbn [app] in E1; injection E1 as <- E1;
      destruct C as [[C L]|[C L]]; try discriminate C; apply app_same_length in E1; try congruence;
      destruct E1 as [-> ->]; rewrite (digits_fun _ _ _ _ D D') in *; apply app_inv_head in E2; subst; auto.
Qed.

Lemma literal_only_if cps texts : Forall2 escapes cps texts -> string_literal (concat texts) (flat_map encode cps) ->
  Forall (fun cp => ~ c1 cp) cps /\ ~ runs_on cps.
Proof.
  intros F. induction F as [|cp t cps ts H F IH]; intros Lt; cbn [concat flat_map] in Lt.
  - split; [constructor|]. intros (a & x & d & b & E & _). now destruct a.
  - pose proof (follows _ _ F) as Fo.
    assert (X : ~ c1 cp /\ ~ (hex_escaped cp /\ match cps with d :: _ => (d < 128)%N /\ hexadecimal (Nb d) | [] => False end) /\
                string_literal (concat ts) (flat_map encode cps)).
    { destruct H as [cp P|cp c S|cp ds P L _ D|cp ds P L _ D|cp ds P L _ D].
      - rewrite encode_ascii in Lt by (destruct P; lia). apply literal_char in Lt; [|now apply plain_not_bs].
        destruct Lt as (t' & E & Lt). injection E as <-. splits; auto.
        + unfold c1. destruct P. lia.
        + intros [[Y _] _]. destruct P. lia.
      - rewrite encode_ascii in Lt by (apply (simple_value _ _ S)). destruct (literal_simple _ _ _ _ S Lt) as (t' & E & Lt').
        injection E as <-. splits; auto.
        + unfold c1. pose proof (proj1 (simple_value _ _ S)). lia.
        + intros [[_ Y] _]. eauto.
      - pose proof (hex_escaped_ascii _ P). rewrite encode_ascii in Lt by lia. apply literal_hex in Lt; auto.
        destruct Lt as [Y Lt]. splits; auto; [unfold c1; lia|]. rewrite <- Fo. tauto.
      - apply (literal_name _ "u"%byte) in Lt; [|exists ds; auto]. destruct Lt as [U Lt]. splits; auto.
        + unfold c1, ucn in *. lia.
        + intros [Y _]. apply hex_escaped_ascii in Y. lia.
      - apply (literal_name _ "U"%byte) in Lt; [|exists ds; auto]. destruct Lt as [U Lt]. splits; auto.
        + unfold c1, ucn in *. lia.
        + intros [Y _]. apply hex_escaped_ascii in Y. lia. }
    destruct X as (X1 & X2 & X3). destruct (IH X3) as [Y1 Y2]. split; [now constructor|]. rewrite runs_on_head. tauto.
Qed.

(** ** Cleaning *)

Notation escape_read := (utf8_read (ttext generate_c_escape_table)).

Lemma escape_maxdata : t_maxdata generate_c_escape_table = 10.
Proof.
  destruct generated_table as (W & M & _ & G). apply Nat.le_antisymm; [exact M|].
  pose proof (get_maxdata _ 0x10000 _ W (G 0x10000%N)) as H.
  change (escape_entry 0x10000) with (Some (backslash :: "U"%byte :: hex_upper 8 0x10000)) in H.
  specialize (get_maxdata _ 0x10000%N (backslash :: "U"%byte :: hex_upper 8 0x10000) W (G 0x10000%N)).
  cbn [length]. rewrite hex_upper_length; [auto|lia|]. change (16 ^ N.of_nat 8)%N with 0x100000000%N. lia.
Qed.

Lemma escape_unit cp u : (0 < cp <= 0x10FFFF)%N -> escapes cp (ttext generate_c_escape_table cp u).
Proof.
  intros H. destruct generated_table as (W & M & _ & G). unfold ttext, table_text. rewrite G.
  destruct (escape_entry_escapes cp H) as (d & -> & E). exact E.
Qed.

Lemma escape_unit_printable cp u : Forall printable_ascii (ttext generate_c_escape_table cp u).
Proof.
  destruct (N.eq_dec cp 0) as [->|Z].
  - replace (ttext generate_c_escape_table 0 u) with (bs "_hidden_null_") by reflexivity.
    repeat (apply Forall_cons; [vm_compute; split; congruence|]). constructor.
  - destruct (N.le_gt_cases cp 0x10FFFF) as [L|L].
    + apply (escapes_printable cp), escape_unit. lia.
    + destruct generated_table as (_ & _ & _ & G). unfold ttext, table_text. rewrite G. unfold escape_entry.
      destruct (N.eqb_spec cp 0); [easy|]. destruct (N.ltb_spec cp 0x80); [lia|]. destruct (N.ltb_spec cp 0x10000); [lia|].
      destruct (N.ltb_spec cp 0x110000); [lia|]. destruct (N.ltb_spec 0x10FFFF cp); [|lia].
      apply Forall_cons; [vm_compute; split; congruence|constructor].
Qed.

Lemma escape_unit_length cp u : sequence u cp -> nonul u -> length (ttext generate_c_escape_table cp u) <= 10 * length u.
Proof.
  intros Q N. pose proof (sequence_length u cp Q) as L1. destruct (N.eq_dec cp 0) as [->|Z].
  - replace (ttext generate_c_escape_table 0 u) with (bs "_hidden_null_") by reflexivity.
    pose proof (sequence_nul u [] Q) as L2. rewrite app_nil_r in L2. specialize (L2 N). change (length (bs "_hidden_null_")) with 13. lia.
  - destruct generated_table as (W & _ & _ & G). unfold ttext, table_text. destruct (table_get generate_c_escape_table cp) as [d|] eqn:E.
    + pose proof (get_maxdata _ _ _ W E). rewrite escape_maxdata in H. lia.
    + destruct (N.eqb_spec cp 0); [easy|]. destruct (N.ltb_spec 0x10FFFF cp) as [X|X]; [simpl; lia|].
      destruct (escape_entry_escapes cp ltac:(lia)) as (d & E' & _). rewrite G, E' in E. discriminate E.
Qed.

Lemma escape_read_facts s o : escape_read s o -> nonul s -> Forall printable_ascii o /\ length o <= 10 * length s.
Proof.
  assert (P : printable_ascii "_"%byte) by (vm_compute; split; congruence).
  induction 1 as [|u cp s o Q H IH|c conts w s o W L F NS H IH|c s o W H IH]; intros N.
  - split; [constructor|simpl; lia].
  - apply nonul_app in N. destruct N as [N1 N2]. destruct (IH N2) as [I1 I2]. rewrite !app_length. split.
    + apply Forall_app. split; [apply escape_unit_printable|exact I1].
    + pose proof (escape_unit_length cp u Q N1). lia.
  - change (c :: conts ++ s) with ((c :: conts) ++ s) in N. apply nonul_app in N. destruct N as [_ N].
    destruct (IH N) as [I1 I2]. cbn [length]. rewrite app_length. split; [now constructor|lia].
  - change (c :: s) with ([c] ++ s) in N. apply nonul_app in N. destruct N as [_ N].
    destruct (IH N) as [I1 I2]. cbn [length]. split; [now constructor|lia].
Qed.

Lemma printable_nonul o : Forall printable_ascii o -> nonul o.
Proof. intros F I. rewrite Forall_forall in F. specialize (F _ I). unfold printable_ascii in F. vm_compute in F. destruct F; congruence. Qed.

Lemma escape_clean s : nonul s -> in_memory s ->
  exists o, escape_read s o /\ clean_utf_8 s (Some generate_c_escape_table) = Ok o /\ Forall printable_ascii o.
Proof.
  intros N M. destruct (clean_utf_8_exact s generate_c_escape_table) as (o & R & E).
  { unfold fits. rewrite escape_maxdata. unfold in_memory in M. change (N.of_nat 10) with 10%N. lia. }
  exists o. destruct (escape_read_facts s o R N) as [P L]. splits; auto. rewrite E, escape_maxdata.
  destruct (N.leb_spec (strlen o) (strlen s * N.of_nat 10)) as [X|X]; [now rewrite (cstr_nonul _ (printable_nonul _ P))|].
  unfold strlen in X. lia.
Qed.

Lemma escape_sequence pf s : 
  sequence_run_filters (o_platform (escape_options pf)) (o_sequence_to_use (escape_options pf)) (Some s) =
  bind (clean_utf_8 s (Some generate_c_escape_table)) (fun o => Ok (Some o)).
Proof.
  cbn [escape_options o_platform o_sequence_to_use sequence_run_filters s_filters run_filters]. unfold filter_run. cbn [f_cleaner f_table].
  destruct (clean_utf_8 s (Some generate_c_escape_table)); reflexivity.
Qed.

Lemma read_text cps : Forall (fun cp => scalar cp /\ cp <> 0%N) cps ->
  exists o, escape_read (flat_map encode cps) o /\ escaped_text cps o.
Proof.
  induction 1 as [|cp cps [Sc Z] F IH].
  - exists []. split; [constructor|]. exists []. split; [constructor|reflexivity].
  - destruct IH as (o & R & ts & Fs & ->).
    exists (ttext generate_c_escape_table cp (encode cp) ++ concat ts). split.
    + cbn [flat_map]. apply ur_seq; auto. apply encode_sequence. now apply scalar_bound.
    + exists (ttext generate_c_escape_table cp (encode cp) :: ts). split; [|reflexivity]. constructor; auto.
      apply escape_unit. unfold scalar in Sc. lia.
Qed.

(** ** The program *)

Lemma escape_main_writes pf contents out :
  inline_writes None (escape_options pf) contents out -> escape_writes (escape_main pf) contents out.
Proof.
  intros H tr p' R. unfold escape_main, trace_of in R. apply runs_bind_inv in R.
  destruct R as [(q & R & ->)|(tr1 & tr2 & a & s1 & E & R & R2)].
  - destruct (H tr q R) as [X Y]. split; [exact X|]. destruct q as [a|w|c k]; cbn [pbind].
    + destruct Y as [_ Y]. auto.
    + destruct Y as [Y _]. discriminate.
    + exact Y.
  - simpl in R2. destruct R2 as [(-> & _ & ->)|[]]. rewrite app_nil_r in E. subst tr1. destruct s1.
    destruct (H tr (Ret a) R) as [X [_ Y]]. auto.
Qed.

Definition escape_fun (s : str) : str :=
  match clean_utf_8 s (Some generate_c_escape_table) with Ok o => o | _ => [] end.

Lemma escape_fun_read s o : nonul s -> in_memory s -> escape_read s o -> escape_fun s = o.
Proof.
  intros N M R. destruct (escape_clean s N M) as (o' & R' & E & _). unfold escape_fun. rewrite E. eapply utf8_read_fun; eauto.
Qed.

