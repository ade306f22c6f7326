(** * Proofs about the configuration in memory: structures *)

From Coq Require Import Permutation.
From Verif Require Import Base BaseFacts Stdio StdioFacts Filter Spoof ConfigSpec ConfigLex ConfigParse Prog Warnings Startup
  Mem MemSpec MemFacts CFiltersProofs CFileProofs Words WordsSpec WordsFacts CTableProofs CTableProofs2 CFilelist FilesSpec CFilelistProofs CConfig LinkedSpec.

Local Open Scope nat_scope.

Lemma NoDup_r {A} (a b : list A) : NoDup (a ++ b) -> NoDup b.
Proof. induction a as [|x a IH]; cbn; auto. intros N. apply NoDup_cons_iff in N as (_ & N). auto. Qed.

Lemma NoDup_l {A} (a b : list A) : NoDup (a ++ b) -> NoDup a.
Proof. induction a as [|x a IH]; cbn; [constructor|]. intros N. apply NoDup_cons_iff in N as (X & N). constructor; auto. intros I. apply X. apply in_app_iff. now left. Qed.

Lemma NoDup_apart {A} (a b : list A) x : NoDup (a ++ b) -> In x a -> ~ In x b.
Proof. induction a as [|y a IH]; cbn; [tauto|]. intros N [->|I] J; apply NoDup_cons_iff in N as (X & N); [apply X; apply in_app_iff; now right|now apply IH]. Qed.

(** ** The same memory *)

Definition same_at (s s' : store_t) (b : nat) : Prop := nth_error (s_heap s') b = nth_error (s_heap s) b /\ s_words s' b = s_words s b.

Lemma content_at s s' p vs : same_at s s' (p_block p) -> content s p vs -> content s' p vs.
Proof. intros (H & W). now apply content_same. Qed.

Lemma cstr_same h h' p x : nth_error h' (p_block p) = nth_error h (p_block p) -> cstr_at h p x -> cstr_at h' p x.
Proof. intros E (cells & rest & N & X). exists cells, rest. now rewrite E. Qed.

Lemma string_same s s' q x : (forall b, In b (block_list [q]) -> same_at s s' b) -> string_in (s_heap s) q x -> string_in (s_heap s') q x.
Proof.
  intros S. destruct q as [q|], x as [x|]; cbn; auto. intros (O & C). split; [exact O|]. apply (cstr_same (s_heap s)); [|exact C].
  apply S. now left.
Qed.

Lemma filters_same s s' ps : forall fs last own, (forall b, In b own -> same_at s s' b) -> filters_at s ps fs last own -> filters_at s' ps fs last own.
Proof.
  induction ps as [|p ps IH]; intros [|f fs] last own S; cbn [filters_at]; auto.
  intros (fn & bn & rest & C & F & B & T & -> & R). exists fn, bn, rest. splits; auto.
  - apply (content_at s); [|exact C]. apply S. now left.
  - apply (string_same s); [|exact F]. intros b I. apply S. right. apply in_app_iff. left. cbn in *. rewrite app_nil_r in *. apply in_app_iff. now left.
  - apply (string_same s); [|exact B]. intros b I. apply S. right. apply in_app_iff. left. cbn in *. rewrite app_nil_r in *. apply in_app_iff. now right.
  - apply IH; [|exact R]. intros b I. apply S. right. apply in_app_iff. now right.
Qed.

Lemma sequences_same s s' ps : forall qs last own filters, (forall b, In b own -> same_at s s' b) -> (forall b, In b (concat filters) -> same_at s s' b) ->
  sequences_at s ps qs last own filters -> sequences_at s' ps qs last own filters.
Proof.
  induction ps as [|p ps IH]; intros [|q qs] last own filters S S'; cbn [sequences_at]; auto.
  intros (nm & src & fps & fo & rest & fr & C & N & Sr & F & -> & -> & R). exists nm, src, fps, fo, rest, fr. splits; auto.
  - apply (content_at s); [|exact C]. apply S. now left.
  - apply (string_same s); [|exact N]. intros b I. apply S. cbn in *. destruct I as [<-|[]]. auto.
  - apply (string_same s); [|exact Sr]. intros b I. apply S. right. apply in_app_iff. left. cbn in *. now right.
  - apply (filters_same s); [|exact F]. intros b I. apply S'. cbn. apply in_app_iff. now left.
  - apply IH; [| |exact R].
    + intros b I. apply S. right. apply in_app_iff. now right.
    + intros b I. apply S'. cbn. apply in_app_iff. now right.
Qed.

Lemma list_same s s' p files max cursor own : (forall b, In b own -> same_at s s' b) -> list_at s p files max cursor own -> list_at s' p files max cursor own.
Proof.
  intros S (array & names & C & A & F & -> & X). exists array, names. splits; try tauto.
  - apply (content_at s); [|exact C]. apply S. now left.
  - apply (content_at s); [|exact A]. apply S. right. now left.
  - assert (S' : forall q, In q names -> same_at s s' (p_block q)) by (intros q I; apply S; right; right; now apply in_map).
    clear - F S'. induction F as [|q f names files (O & C) F IH]; constructor; auto.
    + split; [exact O|]. apply (cstr_same (s_heap s)); [|exact C]. apply S'. now left.
    + apply IH. intros q' I. apply S'. now right.
Qed.

Lemma ignored_same s s' p files own : (forall b, In b own -> same_at s s' b) -> ignored_at s p files own -> ignored_at s' p files own.
Proof.
  intros S. destruct p as [p|], files as [files|]; cbn; auto. intros (m & L & B). exists m. split; [|exact B]. now apply (list_same s).
Qed.

(** ** They are there *)

Definition there (s : store_t) (b : nat) : Prop := exists cells, nth_error (s_heap s) b = Some (Some cells).

Lemma there_old s b : there s b -> b < length (s_heap s).
Proof. intros (c & E). apply nth_error_Some. congruence. Qed.

Lemma content_there s p vs : content s p vs -> there s (p_block p).
Proof. intros (_ & _ & cells & E & _). now exists cells. Qed.

Lemma string_there s q x b : string_in (s_heap s) q x -> In b (block_list [q]) -> there s b.
Proof. destruct q as [q|], x as [x|]; cbn; try tauto. intros (_ & cells & rest & E & _) [<-|[]]. now exists cells. Qed.

Lemma filters_there s ps : forall fs last own, filters_at s ps fs last own -> forall b, In b own -> there s b.
Proof.
  induction ps as [|p ps IH]; intros [|f fs] last own; cbn [filters_at]; [intros -> b []|tauto..|].
  intros (fn & bn & rest & C & F & B & T & -> & R) b [<-|I]; [now apply content_there in C|]. apply in_app_iff in I as [I|I]; [|eauto].
  cbn in I. rewrite app_nil_r in I. apply in_app_iff in I as [I|I]; [apply (string_there _ _ _ b F)|apply (string_there _ _ _ b B)]; cbn; now rewrite app_nil_r.
Qed.

Lemma sequences_there s ps : forall qs last own filters, sequences_at s ps qs last own filters -> forall b, In b (own ++ concat filters) -> there s b.
Proof.
  induction ps as [|p ps IH]; intros [|q qs] last own filters; cbn [sequences_at]; [intros (-> & ->) b []|tauto..|].
  intros (nm & src & fps & fo & rest & fr & C & N & Sr & F & -> & -> & R) b I. cbn [concat] in I. rewrite <- app_comm_cons in I.
  destruct I as [<-|I]; [now apply content_there in C|]. rewrite !in_app_iff in I. destruct I as [[I|I]|[I|I]].
  - cbn in I. destruct I as [<-|I]; [apply (string_there _ _ _ _ N); now left|apply (string_there _ _ _ b Sr); exact I].
  - apply (IH _ _ _ _ R). apply in_app_iff. now left.
  - now apply (filters_there _ _ _ _ _ F).
  - apply (IH _ _ _ _ R). apply in_app_iff. now right.
Qed.

Lemma list_there s p files max cursor own : list_at s p files max cursor own -> forall b, In b own -> there s b.
Proof. intros L b I. exact (list_own_live _ _ _ _ _ _ _ L I). Qed.

Lemma ignored_there s p files own : ignored_at s p files own -> forall b, In b own -> there s b.
Proof. destruct p as [p|], files as [files|]; cbn; try tauto. - intros (m & L & _). exact (list_there _ _ _ _ _ _ L). - now intros -> b []. Qed.

(** ** Counting *)

Lemma strings_count q q' h x x' : string_in h q x -> string_in h q' x' -> length (block_list [q; q']) = given_to x + given_to x'.
Proof. destruct q, x, q', x'; cbn; tauto. Qed.

Lemma filters_count s ps : forall fs last own, filters_at s ps fs last own -> length own = filter_blocks fs.
Proof.
  induction ps as [|p ps IH]; intros [|f fs] last own; cbn [filters_at]; [now intros ->|tauto..|].
  intros (fn & bn & rest & C & F & B & T & -> & R). rewrite app_comm_cons, app_length, (IH _ _ _ R). cbn [length]. rewrite (strings_count _ _ _ _ _ F B).
  unfold filter_blocks. cbn [map list_sum fold_right]. reflexivity.
Qed.

(** ** Parts *)

Lemma filters_join s ps : forall fs ps' fs' last own own', filters_at s ps fs (first ps' last) own -> filters_at s ps' fs' last own' ->
  filters_at s (ps ++ ps') (fs ++ fs') last (own ++ own').
Proof.
  induction ps as [|p ps IH]; intros [|f fs] ps' fs' last own own'; cbn [filters_at app]; [now intros ->|tauto..|].
  intros (fn & bn & rest & C & F & B & T & -> & R) X. exists fn, bn, (rest ++ own'). splits; auto.
  - destruct ps; exact C.
  - rewrite app_comm_cons. now rewrite <- app_assoc.
Qed.

Lemma sequences_join s ps : forall qs ps' qs' last own own' fs fs', sequences_at s ps qs (first ps' last) own fs -> sequences_at s ps' qs' last own' fs' ->
  sequences_at s (ps ++ ps') (qs ++ qs') last (own ++ own') (fs ++ fs').
Proof.
  induction ps as [|p ps IH]; intros [|q qs] ps' qs' last own own' fs fs'; cbn [sequences_at app]; [now intros (-> & ->)|tauto..|].
  intros (nm & src & fps & fo & rest & fr & C & N & Sr & F & -> & -> & R) X. exists nm, src, fps, fo, (rest ++ own'), (fr ++ fs'). splits; auto.
  - destruct ps; exact C.
  - rewrite app_comm_cons. now rewrite <- app_assoc.
Qed.

Lemma sequences_split s qs : forall ps q qs' last own fs, sequences_at s ps (qs ++ q :: qs') last own fs ->
  exists ps1 p ps2 own1 own2 fs1 fs2, ps = ps1 ++ p :: ps2 /\ own = own1 ++ own2 /\ fs = fs1 ++ fs2 /\ length ps1 = length qs /\
    sequences_at s ps1 qs (Some p) own1 fs1 /\ sequences_at s (p :: ps2) (q :: qs') last own2 fs2.
Proof.
  induction qs as [|q0 qs IH]; intros [|p ps] q qs' last own fs; try (cbn; tauto).
  - intros X. exists [], p, ps, [], own, [], fs. splits; auto. cbn. auto.
  - cbn [app sequences_at]. intros (nm & src & fps & fo & rest & fr & C & N & Sr & F & -> & -> & R).
    destruct (IH _ _ _ _ _ _ R) as (ps1 & p1 & ps2 & o1 & o2 & f1 & f2 & -> & -> & -> & L & X & Y).
    exists (p :: ps1), p1, ps2, (p_block p :: block_list [Some nm; src] ++ o1), o2, (fo :: f1), f2. splits; auto.
    + rewrite <- app_comm_cons. f_equal. now rewrite app_assoc.
    + cbn. now rewrite L.
    + exists nm, src, fps, fo, o1, f1. splits; auto. destruct ps1; exact C.
Qed.

Lemma filters_length s ps : forall fs last own, filters_at s ps fs last own -> length ps = length fs.
Proof. induction ps as [|p ps IH]; intros [|f fs] last own; cbn; try tauto. intros (fn & bn & rest & _ & _ & _ & _ & _ & R). f_equal. eauto. Qed.

Lemma sequences_length s ps : forall qs last own fs, sequences_at s ps qs last own fs -> length ps = length qs.
Proof. induction ps as [|p ps IH]; intros [|f qs] last own fs; cbn; try tauto. intros (? & ? & ? & ? & ? & ? & _ & _ & _ & _ & _ & _ & R). f_equal. eauto. Qed.

(** ** The link of the last one *)

Lemma assigned_at s p i w b : b <> p_block p -> same_at s (assigned s p i w) b.
Proof. intros N. split; [reflexivity|]. now apply update_other. Qed.

Lemma filters_heads s ps : forall fs last own p, filters_at s ps fs last own -> In p ps -> In (p_block p) own.
Proof.
  induction ps as [|p ps IH]; intros [|f fs] last own x; cbn [filters_at]; try (cbn; tauto).
  intros (fn & bn & rest & C & F & B & T & -> & R) [->|I]; [now left|]. right. apply in_app_iff. right. eauto.
Qed.

Lemma sequences_heads s ps : forall qs last own fs p, sequences_at s ps qs last own fs -> In p ps -> In (p_block p) own.
Proof.
  induction ps as [|p ps IH]; intros [|f qs] last own fs x; cbn [sequences_at]; try (cbn; tauto).
  intros (nm & src & fps & fo & rest & fr & C & N & Sr & F & -> & -> & R) [->|I]; [now left|]. right. apply in_app_iff. right. eauto.
Qed.

Lemma filters_relink s ps : forall p fs last own q, filters_at s (ps ++ [p]) fs last own -> NoDup own ->
  filters_at (assigned s p 0 (Ptr q)) (ps ++ [p]) fs (Some q) own /\ 7 = length (s_words s (p_block p)) /\ there s (p_block p) /\ p_off p = 0.
Proof.
  induction ps as [|p0 ps IH]; intros p [|f fs] last own q; cbn [filters_at app]; try tauto.
  - intros (fn & bn & rest & C & F & B & T & -> & R) ND. destruct fs; [|cbn in R; tauto]. cbn in R. subst rest.
    splits; [|pose proof (content_length _ _ _ C) as X; now rewrite X|now apply content_there in C|apply C].
    exists fn, bn, []. splits; auto. exact (assigned_content s p _ 0 (Ptr q) (Adr (Some q)) C ltac:(right; eauto)).
  - intros (fn & bn & rest & C & F & B & T & -> & R) ND. assert (I : In (p_block p) rest) by (apply (filters_heads _ _ _ _ _ _ R); apply in_app_iff; right; now left).
    apply NoDup_cons_iff in ND as (N1 & N2). apply NoDup_r in N2.
    destruct (IH p fs last rest q R N2) as (X & Y). split; [|exact Y]. exists fn, bn, rest. splits; auto.
    replace (first (ps ++ [p]) (Some q)) with (first (ps ++ [p]) last) by (now destruct ps).
    apply (content_at s); [|exact C]. apply assigned_at. intros E. apply N1. rewrite E. apply in_app_iff. now right.
Qed.

Lemma sequences_relink s ps : forall p qs last own fs q, sequences_at s (ps ++ [p]) qs last own fs -> NoDup (own ++ concat fs) ->
  sequences_at (assigned s p 0 (Ptr q)) (ps ++ [p]) qs (Some q) own fs /\ 4 = length (s_words s (p_block p)) /\ there s (p_block p) /\ p_off p = 0.
Proof.
  induction ps as [|p0 ps IH]; intros p [|f qs] last own fs q; cbn [sequences_at app]; try tauto.
  - intros (nm & src & fps & fo & rest & fr & C & N & Sr & F & -> & -> & R) ND. destruct qs; [|cbn in R; tauto]. cbn in R. destruct R as (-> & ->).
    splits; [|pose proof (content_length _ _ _ C) as X; now rewrite X|now apply content_there in C|apply C].
    exists nm, src, fps, fo, [], []. splits; auto; [exact (assigned_content s p _ 0 (Ptr q) (Adr (Some q)) C ltac:(right; eauto))|].
    apply (filters_same s); [|exact F]. intros b I. apply assigned_at. intros ->. rewrite <- app_comm_cons in ND. apply NoDup_cons_iff in ND as (X & _). apply X. apply in_app_iff. right. cbn. apply in_app_iff. now left.
  - intros (nm & src & fps & fo & rest & fr & C & N & Sr & F & -> & -> & R) ND.
    assert (I : In (p_block p) rest) by (apply (sequences_heads _ _ _ _ _ _ _ R); apply in_app_iff; right; now left).
    assert (ND' : NoDup (rest ++ concat fr)).
    { cbn [concat] in ND. rewrite <- app_comm_cons in ND. apply NoDup_cons_iff in ND as (_ & ND). rewrite <- app_assoc in ND. apply NoDup_r in ND.
      apply (Permutation_NoDup (l' := fo ++ rest ++ concat fr)) in ND; [now apply NoDup_r in ND|]. rewrite !app_assoc. apply Permutation_app_tail. apply Permutation_app_comm. }
    destruct (IH p qs last rest fr q R ND') as (X & Y). split; [|exact Y]. exists nm, src, fps, fo, rest, fr. splits; auto.
    + replace (first (ps ++ [p]) (Some q)) with (first (ps ++ [p]) last) by (now destruct ps).
      apply (content_at s); [|exact C]. apply assigned_at. intros E. rewrite <- app_comm_cons in ND. apply NoDup_cons_iff in ND as (N1 & _). apply N1. rewrite E. rewrite !in_app_iff. auto.
    + apply (filters_same s); [|exact F]. intros b J. apply assigned_at. intros ->.
      cbn [concat] in ND. rewrite <- app_comm_cons in ND. apply NoDup_cons_iff in ND as (_ & ND). rewrite <- app_assoc in ND. apply NoDup_r in ND.
      apply (NoDup_apart _ _ _ ND I). apply in_app_iff. now left.
Qed.
