(** * Proofs about the generator of built-in tables in memory: the text, undefined behaviour, enough memory *)

From Verif Require Import Base BaseFacts Stdio StdioFacts Table TableSpec TableProofs Prog ParseTable ParseTableSpec ParseTableProofs TableFileSpec TableFileProofs
  Options GenBuiltin GenSpec GenProofs MainSpec CheckTable CheckSpec CheckProofs GenMain
  Warnings WarningsProofs Startup StartProofs3 StartProofs4 Mem MemSpec MemFacts Words WordsSpec WordsFacts CTable TablesSpec
  CParseTable LoadSpec CParseTableProofs2 LinkedSpec CConfigProofs5 CCheck CCheckSpec CGenerate CGenerateSpec CGenerateProofs2.
From Verif Require Import COptionsProofs.

Local Open Scope nat_scope.

(** ** The text *)

Lemma effects_saying ds : forall t, snd (StartProofs4.saying ds t) = effects ds t.
Proof. induction ds as [|d ds IH]; intros t; cbn [StartProofs4.saying effects]; [reflexivity|]. destruct (effect d t); [apply IH|destruct d; reflexivity]. Qed.

Lemma says_parsed locale contents r : parse_table locale contents = Ok r ->
  exists said, parse_table_says locale contents = (said, Ok r) /\ (r <> None -> said = []).
Proof.
  destruct (file_says_one locale contents) as (ds & F & _). intros P. rewrite (parse_says _ _ _ F) in P. injection P as P.
  rewrite (parse_saying _ _ _ F), effects_saying, P. eexists. split; [reflexivity|]. intros N. destruct r as [t|]; [|now destruct N].
  rewrite <- effects_saying in P. exact (proj1 (saying_some _ _ _ P)).
Qed.

Lemma printed_bind {A} (x : str) (m : talk A) (k : A -> talk unit) (a : A) y :
  (exists said, m = (said, Ok a) /\ prints said x) -> (exists said, k a = (said, Ok tt) /\ prints said y) -> exists said, tbind m k = (said, Ok tt) /\ prints said (x ++ y).
Proof.
  intros (l & -> & F & <-) (l' & E & F' & <-). unfold tbind. rewrite E. eexists. split; [reflexivity|]. split; [now apply Forall_app|]. now rewrite map_app, concat_app.
Qed.

Lemma say_prints x : exists said, say Stdout x = (said, Ok tt) /\ prints said x.
Proof. eexists. split; [reflexivity|]. split; [repeat constructor|]. cbn. apply app_nil_r. Qed.

Lemma rows_say_ok rows : forall x, rows_code rows = Ok x -> exists said, rows_say rows = (said, Ok tt) /\ prints said x.
Proof.
  induction rows as [|r rows IH]; intros x E; cbn [rows_code rows_say] in *.
  - injection E as <-. exists []. repeat split. constructor.
  - unfold row_code in E. destruct (r_key r =? 0)%N.
    + cbn [bind] in E. destruct (rows_code rows) as [b| |]; try discriminate. injection E as <-. rewrite tbind_done. now apply IH.
    + destruct (r_data r) as [d|]; [|discriminate]. destruct (escape_string d) as [e| |]; try discriminate. cbn [bind] in E. destruct (rows_code rows) as [b| |]; try discriminate. cbn [bind] in E. injection E as <-.
      rewrite quietly_ok. apply (printed_bind (row_text (r_key r) e) _ _ tt); [apply say_prints|now apply IH].
Qed.

Lemma table_says_ok file t x : table_code (bs "NEW") file t = Ok x -> exists said, table_says file t = (said, Ok tt) /\ prints said x.
Proof.
  unfold table_code, table_says. destruct (rows_code (t_rows t)) as [rows| |] eqn:R; try discriminate. cbn [bind]. intros E. injection E as <-. cbv zeta.
  pose proof (rows_say_ok _ _ R) as Rs.
  assert (G : exists said, table_says file t = (said, Ok tt) /\ prints said
    (header_text file ++ array_text (N.of_nat (t_used t)) ++ rows ++ end_text ++ members_text (N.of_nat (t_used t)) (N.of_nat (t_maxdata t)) (t_maxkey t) (N.of_nat (t_overwrites t)) ++
     default_text (t_default t) ++ end_text ++ loader_text (loader_size (N.of_nat (t_used t))))).
  { unfold table_says. repeat (apply (printed_bind _ _ _ tt); [exact Rs || apply say_prints|]). apply say_prints. }
  destruct G as (said & E & F & C). exists said. split; [exact E|]. split; [exact F|]. rewrite C. clear. unfold header_text, array_text, end_text, members_text, default_text, loader_text. unfold line.
  rewrite <- !app_assoc. reflexivity.
Qed.

Theorem generated_text locale file contents :
  match generate_loader locale file contents with
  | Ok text => exists said, generate_says locale file (Readable contents) = (said, Ok tt) /\ prints said text
  | UB why => snd (generate_says locale file (Readable contents)) = UB why
  | Exit _ => False
  end.
Proof.
  unfold generate_says. cbn [loaded_says].
  destruct (generator_defined locale file contents) as [(text & E)|[(P & E)|(hold & P & L & E)]]; rewrite E.
  - unfold generate_loader in E. destruct (parse_table locale contents) as [[hold|]| |] eqn:P; try discriminate. cbn [bind] in E.
    destruct (says_parsed _ _ _ P) as (said & -> & N). rewrite N by discriminate. change (@nil (stream * str), Ok (Some hold)) with (done (Some hold)). rewrite tbind_done.
    destruct (2 ^ 31 <=? t_maxkey hold + 1)%N; [discriminate|]. now apply table_says_ok.
  - destruct (says_parsed _ _ _ P) as (said & -> & _). reflexivity.
  - destruct (says_parsed _ _ _ P) as (said & -> & _). cbn [tbind]. apply N.leb_le in L. rewrite L. reflexivity.
Qed.

(** ** Undefined behaviour *)

Lemma generate_ends locale file found why : snd (generate_says locale file found) = UB why ->
  (why = NullDeref /\ forall contents, found = Readable contents -> parse_table locale contents = Ok None) \/
  (why = IntOverflow /\ exists contents ds, found = Readable contents /\ file_says locale contents ds /\ largest ds = (2 ^ 31 - 1)%N).
Proof.
  destruct found as [|message|contents]; [cbn; intros [= <-]; left; split; [reflexivity|discriminate]..|].
  intros E. pose proof (generated_text locale file contents) as G. unfold generate_loader in G.
  destruct (parse_table_total locale contents) as [[hold|] P]; rewrite P in G; cbn [bind] in G.
  - destruct (N.leb_spec (2 ^ 31) (t_maxkey hold + 1)) as [L|L].
    + rewrite E in G. injection G as ->. right. split; [reflexivity|]. destruct (file_says_one locale contents) as (ds & F & _). exists contents, ds. splits; auto.
      destruct (says_parsed _ _ _ P) as (said & Q & _). destruct (loaded_facts locale contents ds hold F) as (_ & _ & M & B & _); [now rewrite Q|]. lia.
    + destruct (generator_defined locale file contents) as [(text & D)|[(P' & D)|(h & P' & L' & D)]].
      * unfold generate_loader in D. rewrite P in D. cbn [bind] in D. destruct (N.leb_spec (2 ^ 31) (t_maxkey hold + 1)); [lia|]. rewrite D in G. destruct G as (said & G & _). rewrite G in E. discriminate.
      * congruence.
      * rewrite P in P'. injection P' as <-. lia.
  - rewrite E in G. injection G as ->. left. split; [reflexivity|]. intros c [= <-]. exact P.
Qed.

Lemma parse_says_ok locale contents : exists said r, parse_table_says locale contents = (said, Ok r).
Proof. destruct (parse_table_total locale contents) as (r & P). destruct (says_parsed _ _ _ P) as (said & E & _). eauto. Qed.

Lemma generate_no_exit locale file found c : snd (generate_says locale file found) <> Exit c.
Proof.
  destruct found as [|message|contents]; [discriminate..|]. pose proof (generated_text locale file contents) as G.
  destruct (generate_loader locale file contents); [destruct G as (said & -> & _); discriminate|rewrite G; discriminate|contradiction].
Qed.

Lemma snd_then {A B} (m : talk A) (b : B) : snd (let% _ := m in done b) = match snd m with Ok _ => Ok b | UB w => UB w | Exit c => Exit c end.
Proof. destruct m as [w [a|u|c]]; reflexivity. Qed.

Section generate.

Context {al : allocator}.

Theorem generator_undefined locale args found denied s why : limited al ->
  (forall file, hd_error args = Some file -> sizeable (found file) /\ (Z.of_nat (table_capacity (denied file)) <= int_max)%Z) ->
  snd (c_generator_main locale args found denied s) = UB why ->
  exists file, hd_error args = Some file /\
   ((why = NullDeref /\ forall contents, found file = Readable contents -> parse_table locale contents = Ok None) \/
    (why = IntOverflow /\ exists contents ds, found file = Readable contents /\ file_says locale contents ds /\ largest ds = (2 ^ 31 - 1)%N)).
Proof.
  intros Lim Sz U. pose proof (generator_main_ok locale args found denied s Lim Sz) as F.
  assert (P : snd (generator_main locale args found) = UB why).
  { destruct F as [said b a s' E X|said c E|said w E|said said' h n message E1 E2 E3|h n message t E []]; try discriminate U. cbn [snd] in U. injection U as <-. now rewrite E. }
  clear F U Sz. destruct args as [|file args]; [discriminate P|]. exists file. split; [reflexivity|]. cbn [generator_main] in P. rewrite snd_then in P.
  apply (generate_ends locale (basename (Some file))). destruct (snd (generate_says locale (basename (Some file)) (found file))); try discriminate P. injection P as ->. reflexivity.
Qed.

Lemma generating_one locale denied f n n' : generating locale denied f n -> generating locale denied f n' -> n' = n.
Proof.
  intros X. destruct X as [|message|contents ds F]; intros Y; inversion Y as [|m|c d G]; subst; try reflexivity.
  destruct (file_says_one locale contents) as (e & _ & U). now rewrite (U _ F), (U _ G).
Qed.

Theorem generator_enough locale file rest found denied s need : limited al ->
  sizeable (found file) -> (Z.of_nat (table_capacity (denied file)) <= int_max)%Z -> generating locale (denied file) (found file) need ->
  (forall h k, heap_size h + N.to_nat k <= heap_size (s_heap s) + need -> refusal_of h k = None) ->
  fst (c_generator_main locale (file :: rest) found denied s) = fst (generator_main locale (file :: rest) found) /\
  match snd (generator_main locale (file :: rest) found) with
  | Ok status => exists s', snd (c_generator_main locale (file :: rest) found denied s) = Ok (status, s') /\ remains s locale (found file) s'
  | UB why => snd (c_generator_main locale (file :: rest) found denied s) = UB why
  | Exit _ => False
  end.
Proof.
  intros Lim S1 S2 G En.
  assert (Sz : forall f, hd_error (file :: rest) = Some f -> sizeable (found f) /\ (Z.of_nat (table_capacity (denied f)) <= int_max)%Z) by (intros f [= <-]; auto).
  pose proof (generator_main_ok locale (file :: rest) found denied s Lim Sz) as F.
  assert (Nr : forall h k, (exists f, hd_error (file :: rest) = Some f /\ wants s locale (found f) (denied f) h k) -> refusal_of h k = None).
  { intros h k (f & [= <-] & more & need' & -> & Gn & L). apply En. rewrite size_app. assert (need' = need); [|lia]. eapply generating_one; eauto. }
  destruct (follows_enough _ _ _ _ F Nr) as (E1 & E2). split; [exact E1|].
  destruct (snd (generator_main locale (file :: rest) found)) as [b|w|c] eqn:Ep.
  - destruct E2 as (a & s' & E2 & -> & X). exists s'. split; [exact E2|]. destruct X as [([=] & _)|(f & [= <-] & X)]. exact X.
  - exact E2.
  - cbn [generator_main] in Ep. rewrite snd_then in Ep. destruct (snd (generate_says locale (basename (Some file)) (found file))) eqn:Eg; try discriminate. exact (generate_no_exit _ _ _ _ Eg).
Qed.

End generate.
