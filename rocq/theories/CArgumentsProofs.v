(** * The file arguments in memory *)

From Verif Require Import Base BaseFacts Stdio CleanString Filter Filelist Prog ProgFacts Warnings File Mem MemFacts MemSpec CFilters CFiltersProofs CFile CSim MainSpec MainProofs CFileProofs.

Local Open Scope nat_scope.

Section proofs.

Context {al : allocator}.
Hypothesis Lim : limited al.

Lemma strings_old (h a : heap) ptrs files : Forall2 (cstr_at h) ptrs files -> Forall2 (cstr_at (h ++ a)) ptrs files.
Proof. induction 1; constructor; auto. now apply cstr_old. Qed.

Definition arguments_done (tr0 : list event) (h : heap) (tr : list event) (c : option filelist * heap) (r : option filelist) : Prop :=
  fst c = r /\ bounded (snd c) /\ exists a, snd c = h ++ a /\
    opened_in tr <= opened_in tr0 + live a /\ live a + opened_in tr0 + 2 * asked_in tr0 <= opened_in tr + 2 * asked_in tr.

Lemma argument_sim fuel o tr (h : heap) p s ign : cstr_at h p s -> bounded h ->
  sim (arguments_done tr h) tr (c_process_argument fuel o p ign h) (process_argument fuel o s ign).
Proof.
  intros C Bd. unfold c_process_argument, process_argument. eapply sim_mem; [exact (read_ok _ _ _ C)|].
  eapply sim_bind with (R := fun tr' (c : unit * heap) (_ : unit) => snd c = h /\ opened_in tr' = opened_in tr /\ asked_in tr' = asked_in tr).
  { destruct (0 <? o_verbose o)%N; [|now apply sim_ret]. apply sim_call. intros [] _. apply sim_ret. cbn [snd]. rewrite opened_app, asked_app. cbn. splits; auto; lia. }
  intros tr1 [[] h1] [] (E0 & E1 & E2). cbn [snd] in E0. subst h1. apply sim_sys. intros [st|m] _.
  2:{ apply sim_sys. intros [] _. apply sim_ret. unfold arguments_done. cbn [fst snd]. splits; auto. exists []. rewrite app_nil_r, !opened_app, !asked_app. cbn. splits; auto; lia. }
  set (tr2 := tr1 ++ _). assert (E3 : opened_in tr2 = opened_in tr /\ asked_in tr2 = asked_in tr + 1).
  { unfold tr2. rewrite opened_app, asked_app. cbn. lia. }
  clearbody tr2. destruct E3 as [E3 E4].
  assert (Pf := sim_only opens_nothing _ tr2 _ _ (parse_file_sim Lim tr2 h p s o C Bd) (parse_file_opens s o)).
  destruct (isdir st); [|destruct (isreg st || o_special o)%bool].
  - eapply sim_bind; [exact Pf|]. intros tr3 [q h3] r [[Bd3 H] (more & -> & Fm)]. cbn [fst snd] in *. apply opened_none in Fm.
    pose proof (hands_cstr _ _ _ _ _ H) as Cq.
    eapply sim_then; [exact (proj1 (dir_sim Lim o fuel) _ h3 q r ign Cq Bd3)|].
    intros tr4 [ign4 h4] r4 (E & Bd4 & x & Eh & Lo). cbn [fst snd] in *. subst r4 h4.
    destruct (hands_free _ _ _ _ _ x H) as (a & Ef & La & Le & Ls). eapply sim_mem; [exact Ef|]. apply sim_ret.
    unfold arguments_done. cbn [fst snd]. splits; auto.
    + revert Bd4. unfold bounded. rewrite app_assoc, !(size_app _ x). lia.
    + exists (a ++ x). split; [reflexivity|]. rewrite live_app, La. pose proof (lost_file o s). revert Lo. unfold lost_between. rewrite opened_app, asked_app. lia.
  - eapply sim_bind; [exact Pf|]. intros tr3 [q h3] r [[Bd3 (a & b & c & E5 & E6 & (rest & -> & Nr) & L)] (more & -> & Fm)]. cbn [fst snd] in *. subst h3. apply opened_none in Fm.
    apply sim_ret. unfold arguments_done. cbn [fst snd]. splits; auto. exists (a ++ Some (map Some r ++ Some NUL :: rest) :: c). split; [reflexivity|].
    pose proof (lost_file o s). rewrite live_app, live_cons, opened_app, asked_app. cbn [is_live]. lia.
  - apply sim_ret. unfold arguments_done. cbn [fst snd]. splits; auto. exists []. rewrite app_nil_r. cbn. splits; auto; lia.
Qed.

Lemma arguments_sim fuel o : forall files ptrs tr (h : heap) ign, Forall2 (cstr_at h) ptrs files -> bounded h ->
  sim (arguments_done tr h) tr (c_process_arguments fuel o ptrs ign h) (process_arguments fuel o files ign).
Proof.
  induction files as [|f files IH]; intros ptrs tr h ign F Bd; inversion F as [|p f' ps fs Cp Fp]; subst; cbn [c_process_arguments process_arguments].
  - apply sim_ret. unfold arguments_done. cbn [fst snd]. splits; auto. exists []. rewrite app_nil_r. cbn. splits; auto; lia.
  - eapply sim_bind; [exact (argument_sim fuel o tr h p f ign Cp Bd)|]. intros tr1 [ign1 h1] r1 (E1 & Bd1 & a & E0 & L1 & L2). cbn [fst snd] in *. subst r1 h1.
    eapply sim_weaken; [apply (IH ps tr1 (h ++ a) ign1); [|exact Bd1]|].
    + now apply strings_old.
    + intros tr2 [ign2 h2] r2 (E2 & Bd2 & b & E & L3 & L4). cbn [fst snd] in *. subst r2 h2. unfold arguments_done. cbn [fst snd]. splits; auto.
      exists (a ++ b). rewrite app_assoc, live_app. splits; auto; lia.
Qed.

End proofs.
