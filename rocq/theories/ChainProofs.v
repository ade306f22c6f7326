(** * Proofs about chains of filters with tables *)

From Verif Require Import Base BaseFacts Table CleanString CleanSpec Utf8Spec Filter SequenceSpec CleanUtf8 CleanStringProofs CleanUtf8Proofs SequenceProofs ChainSpec.

Local Open Scope nat_scope.

Lemma becomes_nonul pf k t c : text_table t -> c <> NUL -> nonul (becomes pf k t c).
Proof.
  intros T C. assert (S : nonul [c]) by (apply nonul_cons; split; [assumption|apply nonul_nil]).
  unfold becomes. destruct (code_of pf k c) as [n|]; [|exact S]. unfold entry_or_default. destruct T as [T1 T2].
  destruct (table_get t n) eqn:E; [eauto|]. destruct (t_default t) eqn:D; [eauto|exact S].
Qed.

Lemma text_nonul pf k t s : text_table t -> nonul s -> nonul (text_becomes pf k t s).
Proof. intros T N. apply nonul_flat_map. intros c I. apply becomes_nonul; [exact T|now apply (nonul_not_nul s)]. Qed.

Lemma run_becomes pf f k t s o : bytewise k -> filter_with f k t -> text_table t -> nonul s ->
  filter_run pf f (Some s) = Ok (Some o) -> o = text_becomes pf k t s.
Proof.
  intros K [E T] X N R. rewrite <- (cstr_nonul (text_becomes pf k t s)) by now apply text_nonul.
  unfold filter_run in R. rewrite E, T in R. unfold text_becomes. destruct K as [-> | ->].
  - rewrite clean_safe_eq in R. destruct (store _ _) as [x| |] eqn:S; try discriminate. injection R as <-. apply store_inv in S. subst x.
    now rewrite safe_text_eq.
  - rewrite clean_iso8859_1_eq in R. destruct (store _ _) as [x| |] eqn:S; try discriminate. injection R as <-. apply store_inv in S. subst x.
    rewrite iso_text_eq. f_equal. apply flat_map_ext'. intros c. unfold becomes, code_of. now destruct (bN c <? 128)%N.
Qed.

Lemma applied_two pf f1 f2 s o : applied pf [f1; f2] s o ->
  exists m, filter_run pf f1 (Some s) = Ok (Some m) /\ filter_run pf f2 (Some m) = Ok (Some o).
Proof.
  intros H. inversion H as [|? ? ? m ? R1 H']; subst. inversion H' as [|? ? ? m' ? R2 H'']; subst. inversion H''; subst. eauto.
Qed.

Lemma chain_text pf f1 f2 k1 k2 t1 t2 s o : bytewise k1 -> bytewise k2 -> filter_with f1 k1 t1 -> filter_with f2 k2 t2 ->
  text_table t1 -> text_table t2 -> nonul s -> applied pf [f1; f2] s o ->
  o = flat_map (fun c => text_becomes pf k2 t2 (becomes pf k1 t1 c)) s.
Proof.
  intros K1 K2 F1 F2 T1 T2 N A. destruct (applied_two _ _ _ _ _ A) as (m & R1 & R2).
  pose proof (run_becomes _ _ _ _ _ _ K1 F1 T1 N R1) as ->.
  pose proof (run_becomes _ _ _ _ _ _ K2 F2 T2 (text_nonul pf k1 t1 s T1 N) R2) as ->.
  unfold text_becomes. clear. induction s as [|c s IH]; [reflexivity|]. simpl. now rewrite flat_map_app, IH.
Qed.

Lemma one_becomes pf k t c : text_becomes pf k t [c] = becomes pf k t c.
Proof. unfold text_becomes. simpl. apply app_nil_r. Qed.

Theorem fall_through pf f1 f2 k1 k2 t1 t2 s o : bytewise k1 -> bytewise k2 -> filter_with f1 k1 t1 -> filter_with f2 k2 t2 ->
  text_table t1 -> text_table t2 -> t_default t1 = None -> nonul s -> applied pf [f1; f2] s o ->
  o = flat_map (fun c => match entry_for pf k1 t1 c with
                         | Some x => text_becomes pf k2 t2 x
                         | None => becomes pf k2 t2 c
                         end) s.
Proof.
  intros K1 K2 F1 F2 T1 T2 D N A. rewrite (chain_text pf f1 f2 k1 k2 t1 t2 s o) by assumption. apply flat_map_ext'. intros c.
  unfold becomes at 1, entry_for. destruct (code_of pf k1 c) as [n|]; [|apply one_becomes]. unfold entry_or_default. rewrite D.
  destruct (table_get t1 n); [reflexivity|apply one_becomes].
Qed.

Theorem as_one_table pf f1 f2 f k t1 t2 t s o r : bytewise k -> filter_with f1 k t1 -> filter_with f2 k t2 -> filter_with f k t ->
  text_table t1 -> text_table t2 -> t_default t1 = None -> joined t1 t2 t ->
  (forall n x, table_get t1 n = Some x -> text_becomes pf k t2 x = x) -> nonul s ->
  applied pf [f1; f2] s o -> filter_run pf f (Some s) = Ok (Some r) -> r = o.
Proof.
  intros K F1 F2 F T1 T2 D [J Jd] L N A R. rewrite (fall_through pf f1 f2 k k t1 t2 s o) by assumption.
  assert (T : text_table t).
  { split; [|rewrite Jd; apply T2]. intros n x E. rewrite J in E. destruct (table_get t1 n) eqn:E1; [injection E as <-; now apply (proj1 T1 n)|now apply (proj1 T2 n)]. }
  rewrite (run_becomes _ _ _ _ _ _ K F T N R). apply flat_map_ext'. intros c. unfold becomes, entry_for. destruct (code_of pf k c) as [n|]; [|reflexivity].
  unfold entry_or_default. rewrite J, Jd. destruct (table_get t1 n) as [x|] eqn:E; [|reflexivity]. symmetry. now apply (L n).
Qed.

Theorem default_ends_chain pf f1 f2 k1 k2 t1 t2 s o d : bytewise k1 -> bytewise k2 -> filter_with f1 k1 t1 -> filter_with f2 k2 t2 ->
  text_table t1 -> text_table t2 -> t_default t1 = Some d -> nonul s -> applied pf [f1; f2] s o ->
  o = flat_map (fun c => match code_of pf k1 c with
                         | Some n => text_becomes pf k2 t2 (match table_get t1 n with Some x => x | None => d end)
                         | None => becomes pf k2 t2 c
                         end) s.
Proof.
  intros K1 K2 F1 F2 T1 T2 D N A. rewrite (chain_text pf f1 f2 k1 k2 t1 t2 s o) by assumption. apply flat_map_ext'. intros c.
  unfold becomes at 1. destruct (code_of pf k1 c) as [n|]; [|apply one_becomes]. unfold entry_or_default. rewrite D. now destruct (table_get t1 n).
Qed.

(** ** UTF-8 *)

Lemma run_utf_8 pf f t s o : filter_with f F_utf_8 t -> filter_run pf f (Some s) = Ok (Some o) ->
  exists x, utf8_read (table_text (table_get t) (t_default t)) s x /\ o = cstr x.
Proof.
  intros [E T] R. unfold filter_run in R. rewrite E, T in R. destruct (clean_utf_8_eq s t) as (x & U & Ex). rewrite Ex in R.
  destruct (store _ _) as [y| |] eqn:S; try discriminate. injection R as <-. apply store_inv in S. eauto.
Qed.

Lemma read_characters text us : Forall character us ->
  utf8_read text (concat (map fst us)) (concat (map (fun x => text (snd x) (fst x)) us)).
Proof. induction 1 as [|[u cp] us [Q _] _ IH]; [constructor|]. simpl. now constructor. Qed.

Lemma wf_units u cp : sequence u cp -> well_formed_units u.
Proof. intros Q. exists [u]. split; [now rewrite concat_cons, app_nil_r|]. constructor; [eauto|constructor]. Qed.

Theorem fall_through_utf_8 pf f1 f2 t1 t2 us o : filter_with f1 F_utf_8 t1 -> filter_with f2 F_utf_8 t2 ->
  text_table t1 -> text_table t2 -> t_default t1 = None ->
  (forall n x, table_get t1 n = Some x -> well_formed_units x) ->
  Forall character us -> nonul (concat (map fst us)) -> applied pf [f1; f2] (concat (map fst us)) o ->
  exists parts, o = concat parts /\
    Forall2 (fun x part => match table_get t1 (snd x) with
                           | Some text => utf8_read (table_text (table_get t2) (t_default t2)) text part
                           | None => part = table_text (table_get t2) (t_default t2) (snd x) (fst x)
                           end) us parts.
Proof.
  intros F1 F2 T1 T2 D W C Nn A. destruct (applied_two _ _ _ _ _ A) as (m & R1 & R2).
  destruct (run_utf_8 _ _ _ _ _ F1 R1) as (x1 & U1 & ->). set (text2 := table_text (table_get t2) (t_default t2)) in *.
  pose proof (utf8_read_fun _ _ _ _ U1 (read_characters _ us C)) as ->. clear U1.
  rewrite D in R2. set (text1 := fun x : str * N => table_text (table_get t1) None (snd x) (fst x)) in *.
  assert (E1 : forall x, character x -> text1 x = match table_get t1 (snd x) with Some r => r | None => fst x end).
  { intros [u cp] [Q [P B]]. unfold text1, table_text. cbn [fst snd] in *. destruct (table_get t1 cp); [reflexivity|].
    destruct (N.eqb_spec cp 0); [lia|]. destruct (N.ltb_spec 0x10FFFF cp); [lia|reflexivity]. }
  assert (Nx : forall x, In x us -> nonul (fst x)).
  { intros x I c. apply Nn. apply in_concat. exists (fst x). split; [now apply in_map|exact c]. }
  assert (N1 : nonul (concat (map text1 us))).
  { intros H. apply in_concat in H. destruct H as (y & I & H). apply in_map_iff in I. destruct I as (x & <- & I).
    pose proof (proj1 (Forall_forall _ _) C x I) as Cx. rewrite (E1 x Cx) in H. destruct (table_get t1 (snd x)) eqn:G; [now apply (proj1 T1 _ _ G)|now apply (Nx x I)]. }
  rewrite (cstr_nonul _ N1) in R2. destruct (run_utf_8 _ _ _ _ _ F2 R2) as (x2 & U2 & ->). fold text2 in U2.
  assert (P : exists parts, utf8_read text2 (concat (map text1 us)) (concat parts) /\
    Forall2 (fun x part => match table_get t1 (snd x) with Some text => utf8_read text2 text part | None => part = text2 (snd x) (fst x) end) us parts /\ nonul (concat parts)).
  { clear N1 U2 x2 R2 Nn R1 A. assert (Z : forall s y, nonul s -> utf8_read text2 s y -> nonul y).
    { assert (Zu : nonul (bs "_")) by (vm_compute; intuition discriminate).
      intros s y Ns U. induction U as [|u cp s y Q U IH|c conts w s y W' L' F' S' U IH|c s y W' U IH].
      - apply nonul_nil.
      - apply nonul_app. split; [|apply IH; apply nonul_app in Ns; tauto]. apply nonul_app in Ns. unfold text2, table_text.
        destruct (table_get t2 cp) eqn:G; [now apply (proj1 T2 _ _ G)|]. destruct (cp =? 0)%N; [vm_compute; intuition discriminate|].
        destruct (_ <? cp)%N; [exact Zu|]. destruct (t_default t2) eqn:D2; [now apply (proj2 T2)|tauto].
      - change (nonul (bs "_" ++ y)). apply nonul_app. split; [exact Zu|]. apply IH. change (nonul ((c :: conts) ++ s)) in Ns. apply nonul_app in Ns. tauto.
      - change (nonul (bs "_" ++ y)). apply nonul_app. split; [exact Zu|]. apply IH. change (nonul ([c] ++ s)) in Ns. apply nonul_app in Ns. tauto. }
    induction C as [|x us Cx C IH]; [exists []; splits; [constructor|constructor|apply nonul_nil]|].
    destruct IH as (parts & U & F & Np); [intros; apply Nx; now right|].
    assert (exists part, utf8_read text2 (text1 x) part /\ match table_get t1 (snd x) with Some text => utf8_read text2 text part | None => part = text2 (snd x) (fst x) end) as (part & Up & Hp).
    { rewrite (E1 x Cx). destruct (table_get t1 (snd x)) as [r|].
      - destruct (utf8_read_total t2 r) as (y & Uy). exists y. split; exact Uy.
      - exists (text2 (snd x) (fst x)). split; [|reflexivity]. rewrite <- (app_nil_r (fst x)) at 1. rewrite <- (app_nil_r (text2 _ _)). constructor; [apply Cx|constructor]. }
    exists (part :: parts). simpl. splits.
    - apply read_seq_app; [|exact Up|exact U]. rewrite (E1 x Cx). destruct (table_get t1 (snd x)) eqn:G; [exact (W _ _ G)|exact (wf_units _ _ (proj1 Cx))].
    - now constructor.
    - apply nonul_app. split; [|exact Np]. apply (Z (text1 x)); [|exact Up]. rewrite (E1 x Cx).
      destruct (table_get t1 (snd x)) eqn:G; [now apply (proj1 T1 _ _ G)|apply Nx; now left]. }
  destruct P as (parts & U & F & Np). exists parts. split; [|exact F].
  rewrite (utf8_read_fun _ _ _ _ U2 U). now apply cstr_nonul.
Qed.
