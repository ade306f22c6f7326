(** * Proofs about listing the sequences in memory *)

From Verif Require ConfigParse CTableProofs.
From Verif Require Import Base BaseFacts Stdio Filter Spoof ConfigLoad Prog ProgFacts Warnings File Options Startup Main Mem MemFacts MemSpec Words WordsSpec WordsFacts
  CFilelist FilesSpec CFilelistProofs CConfig LinkedSpec CConfigProofs CConfigProofs2 CConfigProofs5 CConfigProofs7 CLoadProofs4 CReview CReviewSpec CReviewProofs CReviewProofs2 CRunProofs COptions COptionsSpec CDump.

Local Open Scope nat_scope.

Lemma code_known c d : (forall v, c <> F_unknown v) -> (forall v, d <> F_unknown v) -> (code_of c =? cleaner_code d)%Z = true -> c = d.
Proof. intros Nc Nd. destruct c, d; cbn; intros E; try discriminate E; try reflexivity; exfalso; (now eapply Nc) || now eapply Nd. Qed.

Lemma read_done s p x : cstr_at (s_heap s) p x -> bytes (c_read p) s = done (x, s).
Proof. intros C. rewrite (bytes_done _ _ _ _ (read_ok _ _ _ C)). now rewrite store_eta. Qed.

Lemma dump_filter_ok s p f filename builtin next table : familiar f ->
  content s p [next; Num (code_of (f_cleaner f)); Adr filename; Adr builtin; Num (if f_remove_trailing f then 1 else 0); Num (Z.of_N (f_max_length f)); table] ->
  string_in (s_heap s) filename (f_filename f) -> string_in (s_heap s) builtin (f_builtin f) ->
  c_dump_filter p s = done (dump_filter f, s).
Proof.
  intros Fam C Fn Bn. unfold c_dump_filter, dump_filter. step (int_at_ok s p _ 1 _ C eq_refl : int_at p FT_cleaner s = _).
  assert (Kind : forall T (k : str -> wmem T), 
    (let$ kind := (if (code_of (f_cleaner f) =? cleaner_code F_uncgi)%Z then wret ([tab] ++ bs "cleaner: uncgi" ++ [eol])
     else if (code_of (f_cleaner f) =? cleaner_code F_safe)%Z then wret ([tab] ++ bs "cleaner: safe" ++ [eol])
     else if (code_of (f_cleaner f) =? cleaner_code F_wipeup)%Z then
       let$ remove_trailing := int_at p FT_remove_trailing in
       wret ([tab] ++ bs "cleaner: wipeup" ++ [eol] ++
             [tab; tab] ++ bs "remove trailing: " ++ (if (remove_trailing =? 0)%Z then bs "no" else bs "yes") ++ [eol])
     else if (code_of (f_cleaner f) =? cleaner_code F_iso8859_1)%Z then wret ([tab] ++ bs "cleaner: iso8859_1" ++ [eol])
     else if (code_of (f_cleaner f) =? cleaner_code F_utf_8)%Z then wret ([tab] ++ bs "cleaner: utf_8" ++ [eol])
     else if (code_of (f_cleaner f) =? cleaner_code F_max_length)%Z then
       let$ max_length := int_at p FT_max_length in
       wret ([tab] ++ bs "cleaner: max length" ++ [eol] ++ [tab; tab] ++ bs "length: " ++ printf_d (Z.to_N max_length) ++ [eol])
     else if (code_of (f_cleaner f) =? cleaner_code F_lower)%Z then wret ([tab] ++ bs "cleaner: lower" ++ [eol])
     else wret []) in k kind) s =
    k (match f_cleaner f with
   | F_uncgi => [tab] ++ bs "cleaner: uncgi" ++ [eol]
   | F_safe => [tab] ++ bs "cleaner: safe" ++ [eol]
   | F_wipeup => [tab] ++ bs "cleaner: wipeup" ++ [eol] ++
                 [tab; tab] ++ bs "remove trailing: " ++ (if f_remove_trailing f then bs "yes" else bs "no") ++ [eol]
   | F_iso8859_1 => [tab] ++ bs "cleaner: iso8859_1" ++ [eol]
   | F_utf_8 => [tab] ++ bs "cleaner: utf_8" ++ [eol]
   | F_max_length => [tab] ++ bs "cleaner: max length" ++ [eol] ++
                     [tab; tab] ++ bs "length: " ++ printf_d (f_max_length f) ++ [eol]
   | F_lower => [tab] ++ bs "cleaner: lower" ++ [eol]
   | F_unknown _ => []
   end) s).
  { intros T k. pose proof (int_at_ok s p _ 4 _ C eq_refl : int_at p FT_remove_trailing s = _) as E4. pose proof (int_at_ok s p _ 5 _ C eq_refl : int_at p FT_max_length s = _) as E5.
    destruct (f_cleaner f) eqn:Ec; cbn [code_of cleaner_code Z.eqb Pos.eqb]; try apply wbind_ret.
    - rewrite wbind_assoc. step E5. rewrite wbind_ret, N2Z.id. reflexivity.
    - rewrite wbind_assoc. step E4. rewrite wbind_ret. now destruct (f_remove_trailing f).
    - now destruct (Fam value). }
  rewrite Kind. clear Kind. set (kind := match f_cleaner f with F_unknown _ => _ | _ => _ end). clearbody kind.
  step (ptr_at_ok s p _ 3 _ C eq_refl : ptr_at p FT_builtin s = _).
  destruct builtin as [b|], (f_builtin f) as [b'|]; cbn [string_in] in Bn; try contradiction.
  - destruct Bn as (_ & Bn). step (read_done _ _ _ Bn). reflexivity.
  - step (ptr_at_ok s p _ 2 _ C eq_refl : ptr_at p FT_filename s = _).
    destruct filename as [b|], (f_filename f) as [b'|]; cbn [string_in] in Fn; try contradiction.
    + destruct Fn as (_ & Fn). step (read_done _ _ _ Fn). reflexivity.
    + now rewrite app_nil_r.
Qed.

Lemma dump_filters_ok s ps fs own : filters_at s ps fs None own -> NoDup own -> Forall familiar fs -> c_dump_filters (first ps None) s = done (flat_map dump_filter fs, s).
Proof.
  intros A ND Fam. pose proof (filters_room _ _ _ _ A ND) as Rm. clear ND. unfold c_dump_filters, wwhile.
  assert (G : forall fuel ps fs own text, filters_at s ps fs None own -> Forall familiar fs -> length ps < fuel ->
    wrounds fuel (fun v =>
      let (filter, text) := v : option ptr * str in
      match filter with
      | None => wret (inr text)
      | Some filter =>
        let$ this := c_dump_filter filter in
        let$ next := ptr_at filter FT_next in
        wret (inl (next, text ++ this))
      end) (first ps None, text) s = done (text ++ flat_map dump_filter fs, s)).
  { clear. induction fuel as [|fuel IH]; intros [|p ps] [|f fs] own text A Fam L; cbn [length] in L; cbn [filters_at] in A; try lia; try contradiction; cbn [wrounds first flat_map].
    - rewrite wbind_ret, app_nil_r. reflexivity.
    - destruct A as (filename & builtin & rest & C & Fn & Bn & _ & _ & A). inversion Fam as [|? ? Ff Fam']; subst.
      rewrite wbind_assoc. step (dump_filter_ok s p f filename builtin _ _ Ff C Fn Bn). rewrite wbind_assoc.
      step (ptr_at_ok s p _ 0 _ C eq_refl : ptr_at p FT_next s = _). rewrite wbind_ret. rewrite (IH ps fs rest) by (auto; lia). now rewrite app_assoc. }
  rewrite (G _ ps fs own []); auto. lia.
Qed.

(** ** The sequences *)

Lemma same_ptr_eq p q : same_ptr (Some p) (Some q) = true <-> p = q.
Proof.
  destruct p as [b i], q as [b' i']. cbn. rewrite andb_true_iff, !Nat.eqb_eq. split; [intros (-> & ->); reflexivity|]. intros E. injection E as -> ->. auto.
Qed.

Definition marked (which : option ptr) (chosen : option nat) (count : nat) (ps : list ptr) : Prop :=
  forall j w, nth_error ps j = Some w -> same_ptr which (Some w) = match chosen with Some i => i =? count + j | None => false end.

Section sequences.

Context (s : store_t) (config options : ptr) (vs : list value) (verbose : N) (which : option ptr) (chosen : option nat).
Context (CO : content s options vs) (V1 : nth_error vs OP_verbose = Some (Num (Z.of_N verbose))) (V2 : nth_error vs OP_sequence_to_use = Some (Adr which)).

Lemma dump_rounds fuel : forall ps qs own fss count z text, sequences_at s ps qs None own fss -> Forall (fun l => NoDup l) fss -> known_sequences qs -> length ps < fuel ->
  marked which chosen count ps -> (verbose <> 0%N -> z = Z.of_nat count) -> (Z.of_nat (count + length qs) <= int_max)%Z ->
  match dump_sequences (0 <? verbose)%N chosen count qs with
  | Ok t => done (text ++ t, s)
  | UB w => quietly (UB w)
  | Exit c => quietly (Exit c)
  end =
  wrounds fuel (fun v =>
    let '(sequence, count, text) := v : option ptr * Z * str in
    match sequence with
    | None => wret (inr text)
    | Some sequence =>
      let$ verbose := int_at options OP_verbose in
      let$ (count', before) :=
        (if negb (verbose =? 0)%Z then
           let$ count' := int_sum count 1 in
           wret (count', (if (0 <? count)%Z then [eol] else []) ++ bs "sequence name: ")
         else wret (count, [tab])) in
      let$ name := ptr_at sequence SQ_name in
      let$ name := deref name in
      let$ name := bytes (c_read name) in
      let$ sequence_to_use := ptr_at options OP_sequence_to_use in
      let line := name ++ (if same_ptr sequence_to_use (Some sequence) then bs " (*)" else []) ++ [eol] in
      let$ after :=
        (if negb (verbose =? 0)%Z then
           let$ source := ptr_at sequence SQ_source_filename in
           let$ source := deref source in
           let$ source := bytes (c_read source) in
           let$ filters := ptr_at sequence SQ_filters in
           let$ filters := c_dump_filters filters in
           wret ([tab] ++ bs "source file: " ++ source ++ [eol] ++ filters)
         else wret []) in
      let$ next := ptr_at sequence SQ_next in
      wret (inl (next, count', text ++ before ++ line ++ after))
    end) (first ps None, z, text) s.
Proof.
  induction fuel as [|fuel IH]; intros [|p ps] [|q qs] own fss count z text A NDf Kn L Mk Hz Le; cbn [length] in L, Le; cbn [sequences_at] in A; try lia; try contradiction; cbn [wrounds first dump_sequences].
  - rewrite wbind_ret, app_nil_r. reflexivity.
  - destruct A as (name & source & fps & fown & rest & frest & C & Hn & Hs & F & _ & -> & A). inversion NDf as [|? ? ND1 NDf']; subst. inversion Kn as [|? ? Kq Kn']; subst.
    destruct Hn as (_ & Hn).
    assert (Mk' : marked which chosen (S count) ps).
    { intros j w E. rewrite (Mk (S j) w E). replace (count + S j) with (S count + j) by lia. reflexivity. }
    pose proof (Mk 0 p eq_refl) as Mp. rewrite Nat.add_0_r in Mp.
    rewrite wbind_assoc. step (int_at_ok _ _ _ _ _ CO V1). rewrite wbind_assoc.
    assert (Hv : negb (Z.of_N verbose =? 0)%Z = (0 <? verbose)%N) by (destruct verbose; reflexivity). rewrite Hv.
    destruct (0 <? verbose)%N eqn:Ev.
    + assert (z = Z.of_nat count) by (apply Hz; intros ->; discriminate Ev). subst z. clear Hz.
      rewrite wbind_assoc. unfold int_sum at 1. replace (Z.of_nat count + 1 <=? int_max)%Z with true by (symmetry; apply Z.leb_le; lia). rewrite !wbind_ret.
      repeat rewrite wbind_assoc. step (ptr_at_ok s p _ 1 _ C eq_refl : ptr_at p SQ_name s = _). rewrite wbind_assoc. step (deref_ok name s). rewrite wbind_assoc. step (read_done _ _ _ Hn). rewrite wbind_assoc. step (ptr_at_ok _ _ _ _ _ CO V2).
      rewrite wbind_assoc. rewrite wbind_assoc. step (ptr_at_ok s p _ 3 _ C eq_refl : ptr_at p SQ_source_filename s = _).
      destruct (s_source q) as [src|], source as [source|]; cbn [string_in] in Hs; try contradiction; [|reflexivity].
      destruct Hs as (_ & Hs). rewrite wbind_assoc. step (deref_ok source s). rewrite wbind_assoc. step (read_done _ _ _ Hs). rewrite wbind_assoc. step (ptr_at_ok s p _ 2 _ C eq_refl : ptr_at p SQ_filters s = _).
      rewrite wbind_assoc. step (dump_filters_ok s fps (s_filters q) fown F ND1 Kq). rewrite !wbind_ret. rewrite wbind_assoc. step (ptr_at_ok s p _ 0 _ C eq_refl : ptr_at p SQ_next s = _). rewrite wbind_ret.
      cbv beta zeta. rewrite Mp. rewrite <- (IH ps qs rest frest (S count) _ _ A NDf' Kn' ltac:(lia) Mk'); [|lia|lia].
      replace (0 <? Z.of_nat count)%Z with (0 <? count) by (destruct count; reflexivity).
      cbn [bind]. destruct (dump_sequences true chosen (S count) qs) as [t|w|c]; cbn [bind]; [|reflexivity|reflexivity]. apply (f_equal (fun x => done (x, s))). clear. destruct chosen as [i|]; [destruct (i =? count)|]; rewrite <- ?app_assoc; cbn [app]; rewrite <- ?app_assoc; reflexivity.
    + rewrite !wbind_ret. rewrite wbind_assoc. step (ptr_at_ok s p _ 1 _ C eq_refl : ptr_at p SQ_name s = _). rewrite wbind_assoc. step (deref_ok name s). rewrite wbind_assoc. step (read_done _ _ _ Hn). rewrite wbind_assoc. step (ptr_at_ok _ _ _ _ _ CO V2).
      rewrite wbind_assoc, wbind_ret. rewrite wbind_assoc. step (ptr_at_ok s p _ 0 _ C eq_refl : ptr_at p SQ_next s = _). rewrite wbind_ret.
      cbv beta zeta. rewrite Mp. rewrite <- (IH ps qs rest frest (S count) _ _ A NDf' Kn' ltac:(lia) Mk'); [|intros Nv; destruct verbose; [easy|discriminate Ev]|lia].
      cbn [bind]. destruct (dump_sequences false chosen (S count) qs) as [t|w|c]; cbn [bind]; [|reflexivity|reflexivity]. apply (f_equal (fun x => done (x, s))). clear. destruct chosen as [i|]; [destruct (i =? count)|]; rewrite <- ?app_assoc; cbn [app]; rewrite <- ?app_assoc; reflexivity.
Qed.

End sequences.

(** ** The chosen one *)

Lemma sequences_distinct s ps qs last own fs : sequences_at s ps qs last own fs -> NoDup own -> NoDup ps.
Proof.
  revert qs own fs. induction ps as [|p ps IH]; intros [|q qs] own fs; cbn [sequences_at]; try tauto; [constructor|].
  intros (nm & src & fps & fo & rest & fr & C & Hn & Hs & F & -> & -> & R) ND. apply NoDup_cons_iff in ND as (Np & ND). constructor.
  - intros I. apply Np. apply in_app_iff. right. now apply (sequences_heads _ _ _ _ _ _ _ R).
  - apply (IH _ _ _ R). now apply NoDup_r in ND.
Qed.

Lemma position_among wanted qs1 q qs2 : unlike wanted qs1 -> str_eqb (s_name q) wanted = true -> Main.position wanted (qs1 ++ q :: qs2) = Some (length qs1).
Proof. intros U E. induction qs1 as [|x qs1 IH]; cbn; [now rewrite E|]. rewrite (U x) by now left. rewrite IH; [reflexivity|]. intros y I. apply U. now right. Qed.

Lemma position_unlike wanted qs : unlike wanted qs -> Main.position wanted qs = None.
Proof. intros U. induction qs as [|x qs IH]; cbn; [reflexivity|]. rewrite (U x) by now left. rewrite IH; [reflexivity|]. intros y I. apply U. now right. Qed.

Lemma marked_among ps1 w ps2 : NoDup (ps1 ++ w :: ps2) -> marked (Some w) (Some (length ps1)) 0 (ps1 ++ w :: ps2).
Proof.
  intros ND j w' E. rewrite Nat.add_0_l. assert (Ew : nth_error (ps1 ++ w :: ps2) (length ps1) = Some w) by (rewrite nth_error_app2, Nat.sub_diag by lia; reflexivity).
  destruct (Nat.eqb_spec (length ps1) j) as [<-|N].
  - rewrite Ew in E. injection E as <-. now apply same_ptr_eq.
  - destruct (same_ptr (Some w) (Some w')) eqn:S; [|reflexivity]. apply same_ptr_eq in S. subst w'. exfalso. apply N. rewrite NoDup_nth_error in ND. apply ND; [|congruence]. apply nth_error_Some. congruence.
Qed.

Theorem choose_marked {al : allocator} literal s ps qs own fs name nm : sequences_at s ps qs None own fs -> NoDup own -> cstr_at (s_heap s) (literal (bs "default")) (bs "default") ->
  text_in (s_heap s) name nm ->
  exists which, c_sequence_choose_default literal (first ps None) name s = done (which, s) /\ marked which (chosen_position qs nm) 0 ps /\
    match sequence_choose_default qs nm, which with
    | None, None => True
    | Some q, Some w => picks ps qs w q
    | _, _ => False
    end.
Proof.
  intros A ND D N. destruct (choose_in_memory literal s ps qs own fs name nm A ND D N) as (which & E0 & Pk). exists which. split; [exact E0|]. split; [|exact Pk]. clear Pk.
  revert E0. pose proof (sequences_distinct _ _ _ _ _ _ A ND) as NDp. unfold c_sequence_choose_default, chosen_position.
  set (p := match name with Some name => name | None => literal (bs "default") end). set (wanted := match nm with Some n => n | None => bs "default" end).
  assert (C : cstr_at (s_heap s) p wanted) by (unfold p, wanted; destruct name, nm; cbn in N; easy).
  destruct (find_rounds s p wanted C ps qs own fs (S (heap_size (s_heap s))) A) as (found & E & X); [pose proof (sequences_room _ _ _ _ _ _ A ND); lia|].
  change (wrounds (S (heap_size (s_heap s))) ?b ?i s) with (wwhile b i s) in E. step E. destruct found as [w|].
  - destruct X as (ps1 & ps2 & qs1 & q & qs2 & -> & -> & L & U & Q). rewrite (position_among _ _ _ _ U Q). intros F. injection F as <-. rewrite <- L. now apply marked_among.
  - rewrite (position_unlike _ _ X). destruct name as [name|], nm as [nm|]; cbn in N; try easy; intros F; injection F as <-.
    + intros j w _. reflexivity.
    + destruct ps as [|p0 ps], qs as [|q qs]; cbn [sequences_at first] in *; try contradiction; [intros [|] w [=]|exact (marked_among [] p0 ps NDp)].
Qed.

(** ** The files *)

Lemma dump_ignored_ok s config seqs ignore files iown : content s config [seqs; Adr ignore] -> ignored_at s ignore files iown -> ~ In (p_block config) iown ->
  exists s', c_dump_ignored config s = done (match files with None | Some [] => [] | Some l => [eol] ++ bs "files to ignore:" ++ [eol] ++ flat_map (fun f => [tab] ++ f ++ [eol]) l end, s') /\
    s_heap s' = s_heap s /\ ignored_at s' ignore files iown /\ same_but iown s s'.
Proof.
  intros C G Ni. unfold c_dump_ignored. step (ptr_at_ok s config _ 1 _ C eq_refl : ptr_at config CF_files_to_ignore s = _).
  destruct ignore as [l|], files as [files|]; cbn [ignored_at] in G; try contradiction.
  - destruct G as (max & T & M). step (list_count _ _ _ _ _ _ T).
    destruct files as [|f0 files0]; [exists s; splits; try reflexivity; [exists max; auto|easy]|]. set (files := f0 :: files0) in *.
    replace (0 <? Z.of_nat (length files))%Z with true by reflexivity.
    assert (Lr : length files <= heap_size (s_heap s)).
    { destruct T as (array & names & _ & CA & F & _ & _ & B & _). apply content_size in CA. rewrite app_length, map_length in CA. pose proof (CTableProofs.Forall2_len _ _ _ F). lia. }
    unfold wwhile.
    assert (Gn : forall fuel n s text, list_at s l files max n iown -> n <= length files -> length files - n < fuel ->
      exists s', wrounds fuel (fun text =>
        let$ file_walk := c_filelist_get (Some l) in
        match file_walk with
        | None => wret (inr text)
        | Some file_walk =>
          let$ name := bytes (c_read file_walk) in
          wret (inl (text ++ [tab] ++ name ++ [eol]))
        end) text s = done (text ++ flat_map (fun f => [tab] ++ f ++ [eol]) (skipn n files), s') /\
      s_heap s' = s_heap s /\ list_at s' l files max 0 iown /\ same_but iown s s').
    { clear -f0. induction fuel as [|fuel IH]; intros n s text T L Lf; [lia|]. cbn [wrounds]. rewrite wbind_assoc.
      assert (Hl : forall b, b = p_block l -> In b iown) by (intros b ->; destruct T as (array & names & _ & _ & _ & -> & _); now left).
      destruct (list_get s l files max n iown T) as (q & s1 & E & Q & T1 & H1 & Sb). step E.
      assert (Sb' : same_but iown s s1) by (intros b Nb; apply Sb; intros [J|[]]; apply Nb; auto).
      destruct (nth_error files n) as [f|] eqn:En.
      - destruct q as [q|]; cbn [string_in] in Q; [|easy]. destruct Q as (_ & Q). rewrite wbind_assoc. step (read_done _ _ _ Q). rewrite wbind_ret.
        assert (Ln : n < length files) by (apply nth_error_Some; congruence).
        unfold onward in T1. destruct (Nat.eqb_spec n (length files)) as [|_]; [lia|].
        destruct (IH (S n) s1 (text ++ [tab] ++ f ++ [eol]) T1 ltac:(lia) ltac:(lia)) as (s2 & E2 & H2 & T2 & Sb2). exists s2. splits; [|congruence|exact T2|].
        + rewrite E2. assert (Sk : skipn n files = f :: skipn (S n) files).
          { clear -En. revert n En. induction files as [|x l IH]; intros [|n] E; cbn in *; try discriminate; [now injection E as ->|]. apply IH in E. exact E. }
          rewrite Sk. cbn [flat_map]. now rewrite <- !app_assoc.
        + intros b Nb. rewrite Sb2, Sb' by exact Nb. reflexivity.
      - destruct q; cbn [string_in] in Q; [easy|]. apply nth_error_None in En. replace n with (length files) in * by lia. rewrite wbind_ret. exists s1. rewrite skipn_all. cbn [flat_map]. rewrite app_nil_r. splits; auto.
        unfold onward in T1. now rewrite Nat.eqb_refl in T1. }
    destruct (Gn (S (heap_size (s_heap s))) 0 s ([eol] ++ bs "files to ignore:" ++ [eol]) T ltac:(lia) ltac:(lia)) as (s' & E & H & T' & Sb). exists s'. splits; auto. exists max. auto.
  - step (eq_refl : c_filelist_count None s = done (0%Z, s)). exists s. splits; try reflexivity; easy.
Qed.

(** ** The whole *)

Theorem dump_ok s p c o vs which verbose ps ignore sown iown fss chosen :
  content s p [Adr (first ps None); Adr ignore] -> sequences_at s ps (cf_sequences c) None sown fss -> ignored_at s ignore (cf_ignore c) iown ->
  NoDup sown -> Forall (fun l => NoDup l) fss -> ~ In (p_block p) iown -> known_sequences (cf_sequences c) -> (Z.of_nat (length (cf_sequences c)) <= int_max)%Z ->
  content s o vs -> nth_error vs OP_verbose = Some (Num (Z.of_N verbose)) -> nth_error vs OP_sequence_to_use = Some (Adr which) -> marked which chosen 0 ps ->
  match dump_config_file c chosen (0 <? verbose)%N with
  | Ok text => exists s', c_dump_config_file p o s = done (text, s') /\ s_heap s' = s_heap s /\ same_but iown s s' /\ ignored_at s' ignore (cf_ignore c) iown
  | UB w => c_dump_config_file p o s = quietly (UB w)
  | Exit e => c_dump_config_file p o s = quietly (Exit e)
  end.
Proof.
  intros C A G ND NDf Ni Kn Le CO V1 V2 Mk. unfold c_dump_config_file, dump_config_file. step (int_at_ok _ _ _ _ _ CO V1).
  unfold c_dump_sequences at 1. pose proof (sequences_room _ _ _ _ _ _ A ND) as Rm.
  assert (Hv : (Z.of_N verbose =? 0)%Z = negb (0 <? verbose)%N) by (destruct verbose; reflexivity).
  pose proof (dump_rounds s o vs verbose which chosen CO V1 V2 (S (heap_size (s_heap s))) ps (cf_sequences c) sown fss 0 0%Z [] A NDf Kn ltac:(lia) Mk ltac:(reflexivity) ltac:(exact Le)) as E.
  assert (Es : c_dump_sequences p o s = match dump_sequences (0 <? verbose)%N chosen 0 (cf_sequences c) with Ok t => done (t, s) | UB w => quietly (UB w) | Exit e => quietly (Exit e) end).
  { unfold c_dump_sequences. step (ptr_at_ok s p _ 0 _ C eq_refl : ptr_at p CF_sequences s = _). symmetry in E. etransitivity; [exact E|]. now destruct (dump_sequences _ _ _ _). }
  clear E. destruct (dump_sequences (0 <? verbose)%N chosen 0 (cf_sequences c)) as [t|w|e]; cbn [bind].
  - destruct (dump_ignored_ok s p _ ignore (cf_ignore c) iown C G Ni) as (s' & Ei & H & G' & Sb). exists s'. splits; auto.
    fold (c_dump_sequences p o). step Es. step Ei. rewrite Hv. now destruct (0 <? verbose)%N.
  - fold (c_dump_sequences p o). unfold wbind at 1. rewrite Es. reflexivity.
  - fold (c_dump_sequences p o). unfold wbind at 1. rewrite Es. reflexivity.
Qed.

(** ** With the choice *)

Lemma stands_word p : stands_for (Some (word_of p)) (Adr p).
Proof. destruct p as [q|]; cbn; [right; now exists q|now left]. Qed.

Lemma assigned_same s p i w b : b <> p_block p -> same_at s (assigned s p i w) b.
Proof. intros N. split; [reflexivity|]. cbn [s_words assigned]. now apply update_other. Qed.

(** What has happened to the members *)
Definition chooses (s : store_t) (opts : options_t) (o : ptr) (name check files ignore : option ptr) (ps : list ptr) (qs : list sequence_t) (which : option ptr) (s' : store_t) : Prop :=
  s_heap s' = s_heap s /\ (forall b, b <> p_block o -> s_words s' b = s_words s b) /\
  content s' o (option_values opts which ignore name check files) /\ marked which (chosen_position qs (o_sequence_name opts)) 0 ps /\
  match sequence_choose_default qs (o_sequence_name opts), which with
  | None, None => True
  | Some q, Some w => picks ps qs w q
  | _, _ => False
  end.

Theorem choose_ok {al : allocator} literal s p c o opts seq ign name check files ps ignore sown fss :
  content s p [Adr (first ps None); Adr ignore] -> sequences_at s ps (cf_sequences c) None sown fss -> NoDup sown ->
  cstr_at (s_heap s) (literal (bs "default")) (bs "default") ->
  content s o (option_values opts seq ign name check files) -> text_in (s_heap s) name (o_sequence_name opts) ->
  p_block o <> p_block p -> ~ In (p_block o) sown -> ~ In (p_block o) (concat fss) ->
  exists which s', c_choose literal p o s = done (which, s') /\ chooses s opts o name check files ignore ps (cf_sequences c) which s'.
Proof.
  intros C A ND D CO N Np Ns Nf. unfold c_choose. step (ptr_at_ok s p _ 1 _ C eq_refl : ptr_at p CF_files_to_ignore s = _).
  step (assign_ok s o _ 8 (word_of ignore) CO ltac:(cbn; lia) : assign o OP_files_to_ignore (word_of ignore) s = _).
  pose proof (assigned_content s o _ 8 _ _ CO (stands_word ignore)) as CO1. cbn [set_nth option_values] in CO1.
  set (s1 := assigned s o 8 (word_of ignore)) in *.
  assert (Sm1 : forall b, b <> p_block o -> same_at s s1 b) by (intros b Nb; now apply assigned_same).
  assert (C1 : content s1 p [Adr (first ps None); Adr ignore]) by (apply (content_at s); auto).
  assert (A1 : sequences_at s1 ps (cf_sequences c) None sown fss) by (apply (sequences_same s); [| |exact A]; intros b I; apply Sm1; intros ->; auto).
  step (ptr_at_ok s1 p _ 0 _ C1 eq_refl : ptr_at p CF_sequences s1 = _). step (ptr_at_ok s1 o _ 9 _ CO1 eq_refl : ptr_at o OP_sequence_name s1 = _).
  destruct (choose_marked literal s1 ps (cf_sequences c) sown fss name (o_sequence_name opts) A1 ND D N) as (which & E & Mk & Pk). step E.
  step (assign_ok s1 o _ 7 (word_of which) CO1 ltac:(cbn; lia) : assign o OP_sequence_to_use (word_of which) s1 = _).
  exists which, (assigned s1 o 7 (word_of which)). split; [reflexivity|]. unfold chooses. splits; auto.
  - intros b Nb. cbn [s_words assigned]. rewrite update_other by exact Nb. now apply Sm1.
  - exact (assigned_content s1 o _ 7 _ _ CO1 (stands_word which)).
Qed.

(** The text is that of the description on lists.  Nothing changes but members of the options and
    the position in the list of files to ignore. *)
Theorem list_in_memory {al : allocator} literal s p c own o opts seq ign name check files :
  loaded_at s p c own -> Forall (fun q => Forall familiar (s_filters q)) (cf_sequences c) -> (Z.of_nat (length (cf_sequences c)) <= int_max)%Z ->
  cstr_at (s_heap s) (literal (bs "default")) (bs "default") ->
  content s o (option_values opts seq ign name check files) -> text_in (s_heap s) name (o_sequence_name opts) -> ~ In (p_block o) own ->
  match dump_config_file c (chosen_position (cf_sequences c) (o_sequence_name opts)) (0 <? o_verbose opts)%N with
  | Ok text => exists which ignore s', c_list_sequences literal p o s = done (text, s') /\ content s' o (option_values opts which ignore name check files) /\
      s_heap s' = s_heap s /\ same_but (p_block o :: own) s s' /\ loaded_at s' p c own
  | UB w => c_list_sequences literal p o s = quietly (UB w)
  | Exit e => c_list_sequences literal p o s = quietly (Exit e)
  end.
Proof.
  intros (cown & fss & (ps & ignore & sown & iown & C & A & G & Ec) & ND & NDc & NDf & Ap & Iff) Kn Le D CO N No.
  assert (Inc : forall b, In b (p_block p :: sown ++ iown) -> In b own) by (intros b I; apply Iff, in_app_iff; left; now rewrite Ec).
  assert (Ifs : forall b, In b (concat fss) -> In b own) by (intros b I; apply Iff, in_app_iff; now right).
  rewrite Ec in NDc. apply NoDup_cons_iff in NDc as (Np & NDc).
  assert (Ni : ~ In (p_block p) iown) by (intros I; apply Np, in_app_iff; now right).
  assert (Nop : p_block o <> p_block p) by (intros E; apply No, Inc; now left).
  destruct (choose_ok literal s p c o opts seq ign name check files ps ignore sown fss C A (NoDup_l _ _ NDc) D CO N Nop) as (which & s1 & E & H1 & W1 & CO1 & Mk & _).
  { intros I. apply No, Inc. right. apply in_app_iff. now left. }
  { intros I. apply No. auto. }
  assert (Sm : forall b, In b own -> same_at s s1 b) by (intros b I; split; [now rewrite H1|apply W1; intros ->; auto]).
  assert (C1 : content s1 p [Adr (first ps None); Adr ignore]) by (apply (content_at s); [|exact C]; apply Sm, Inc; now left).
  assert (A1 : sequences_at s1 ps (cf_sequences c) None sown fss) by (apply (sequences_same s); [| |exact A]; intros b I; apply Sm; auto; apply Inc; right; apply in_app_iff; now left).
  assert (G1 : ignored_at s1 ignore (cf_ignore c) iown) by (apply (ignored_same s); [|exact G]; intros b I; apply Sm, Inc; right; apply in_app_iff; now right).
  pose proof (dump_ok s1 p c o _ which (o_verbose opts) ps ignore sown iown fss _ C1 A1 G1 (NoDup_l _ _ NDc) NDf Ni Kn Le CO1 eq_refl eq_refl Mk) as Dm.
  unfold c_list_sequences. destruct (dump_config_file _ _ _) as [text|w|e]; [|unfold wbind at 1; rewrite E; cbn; rewrite Dm; reflexivity..].
  destruct Dm as (s' & E' & H' & Sb & G'). exists which, ignore, s'. step E. splits; auto; [|congruence| |].
  - apply (content_at s1); [|exact CO1]. split; [now rewrite H'|apply Sb]. intros I. apply No, Inc. right. apply in_app_iff. now right.
  - intros b Nb. rewrite Sb, W1; [reflexivity| |].
    + intros ->. apply Nb. now left.
    + intros I. apply Nb. right. apply Inc. right. apply in_app_iff. now right.
  - assert (Sm' : forall b, ~ In b iown -> same_at s1 s' b) by (intros b Nb; split; [now rewrite H'|now apply Sb]).
    assert (Apc : forall b, In b (concat fss) -> ~ In b iown) by (intros b I J; apply (Ap b); [rewrite Ec; right; apply in_app_iff; now right|exact I]).
    exists cown, fss. splits; auto; [|rewrite Ec; now constructor]. exists ps, ignore, sown, iown. splits; auto.
    + apply (content_at s1); [apply Sm'; exact Ni|exact C1].
    + apply (sequences_same s1); [| |exact A1]; intros b I; apply Sm'; auto. intros J. exact (NoDup_apart _ _ _ NDc I J).
Qed.
