(** * Properties of translation tables (C01-C04) *)

From Verif Require Import Base Table BuiltinTables TableSpec TableProofs.

(** C01: after any history of stores into a new table (hashed or not, of any size), a
    lookup gives the text of the last accepted store for that key; key 0 gives
    nothing. *)
Theorem C01_lookup_is_last_accepted_store :
  forall rows hashed history k,
    table_get (send (new_table rows hashed) history) k
    = last_for k (accepted (new_size rows) history).
Proof. exact table_history. Qed.
Print Assumptions C01_lookup_is_last_accepted_store.

(** C01: storing one key never changes another, in any table the program can build. *)
Theorem C01_store_affects_only_its_key :
  forall t k d k', built t -> k' <> k ->
    table_get (fst (table_put t k d)) k' = table_get t k'.
Proof. intros t k d k' B. exact (put_other_key t k d k' (built_wf t B)). Qed.
Print Assumptions C01_store_affects_only_its_key.

(** C01: an accepted store is what the lookup of its key gives from then on. *)
Theorem C01_accepted_store_is_found :
  forall t k d, built t -> snd (table_put t k d) <> None ->
    table_get (fst (table_put t k d)) k = Some d.
Proof. intros t k d B. exact (put_same_key t k d (built_wf t B)). Qed.
Print Assumptions C01_accepted_store_is_found.

Example C01_collisions_and_overwrite :
  let h := [(3, bs "three"); (8, bs "eight"); (13, bs "thirteen"); (0, bs "zero"); (8, bs "acht")]%N in
  map (table_get (send (new_table 5 true) h)) [3; 8; 13; 0; 18]%N
  = [Some (bs "three"); Some (bs "acht"); Some (bs "thirteen"); None; None].
Proof. vm_compute. reflexivity. Qed.

(** C02: exactly when a store is refused. *)
Theorem C02_when_a_store_is_refused :
  forall rows hashed history k d,
    snd (table_put (send (new_table rows hashed) history) k d) = None <->
    k = 0%N \/
    (new_size rows <= length (filter (fun kd => negb (fst kd =? 0)%N) history))%nat.
Proof. exact table_store_refused. Qed.
Print Assumptions C02_when_a_store_is_refused.

(** C02: a refused store changes nothing. *)
Theorem C02_refused_store_changes_nothing :
  forall t k d, snd (table_put t k d) = None -> fst (table_put t k d) = t.
Proof. exact table_refused_unchanged. Qed.
Print Assumptions C02_refused_store_changes_nothing.

(** A replacement is refused although the table has an empty row. *)
Example C02_replacement_refused_with_room_left :
  let t := send (new_table 2 true) [(7, bs "a"); (7, bs "b")]%N in
  snd (table_put t 7 (bs "c")) = None /\ table_get t 7 = Some (bs "b") /\
  existsb (fun r => (r_key r =? 0)%N) (t_rows t) = true.
Proof. vm_compute. auto. Qed.

(** C03: rebuilding with enough rows preserves every lookup and the default. *)
Theorem C03_resize_preserves :
  forall t n hashed ks, built t -> keys_of t ks -> (length ks <= new_size n)%nat ->
    (forall k, table_get (table_resize t n hashed) k = table_get t k) /\
    t_default (table_resize t n hashed) = t_default t.
Proof.
  intros t n h ks B K L. split.
  - intros k. exact (resize_preserves t n h ks k (built_wf t B) K L).
  - exact (table_resize_default t n h).
Qed.
Print Assumptions C03_resize_preserves.

(** C03: with too few rows, lookups answer as before or not at all. *)
Theorem C03_resize_never_alters :
  forall t n hashed k, built t ->
    table_get (table_resize t n hashed) k = table_get t k \/
    table_get (table_resize t n hashed) k = None.
Proof. intros t n h k B. exact (resize_sound t n h k (built_wf t B)). Qed.
Print Assumptions C03_resize_never_alters.

(** The hypothesis of C03 can always be met. *)
Theorem C03_keys_exist : forall t, built t -> exists ks, keys_of t ks.
Proof. intros t B. exact (ex_intro _ _ (keys_of_row_keys t (built_wf t B))). Qed.
Print Assumptions C03_keys_exist.

Example C03_grow_and_shrink :
  let t := send (new_table 4 false) [(1, bs "a"); (5, bs "b"); (9, bs "c")]%N in
  map (table_get (table_resize t 3 true)) [1; 5; 9]%N = [Some (bs "a"); Some (bs "b"); Some (bs "c")] /\
  map (table_get (table_resize t 2 true)) [1; 5; 9]%N = [Some (bs "a"); Some (bs "b"); None].
Proof. vm_compute. auto. Qed.

(** C04: the recorded maximum bounds every text. *)
Theorem C04_maximum_bounds_texts :
  forall t k d, built t -> table_get t k = Some d -> (length d <= t_maxdata t)%nat.
Proof. intros t k d B. exact (get_maxdata t k d (built_wf t B)). Qed.
Print Assumptions C04_maximum_bounds_texts.

(** C04: after a rebuild the maximum is attained (or 0). *)
Theorem C04_maximum_exact_after_resize :
  forall t n hashed, built t ->
    let t' := table_resize t n hashed in
    t_maxdata t' = 0%nat \/ exists k d, table_get t' k = Some d /\ length d = t_maxdata t'.
Proof. intros t n h B. exact (resize_maxdata t n h (built_wf t B)). Qed.
Print Assumptions C04_maximum_exact_after_resize.

(** Before a rebuild the maximum can exceed every text: the longer text was replaced. *)
Example C04_maximum_not_exact_before_resize :
  let t := send (new_table 4 true) [(1, bs "long"); (1, bs "x")]%N in
  t_maxdata t = 4%nat /\ table_get t 1 = Some (bs "x") /\ t_maxdata (table_resize t 4 true) = 1%nat.
Proof. vm_compute. auto. Qed.

(** The default is not covered. *)
Example C04_default_not_covered :
  t_maxdata load_builtin_unicode_table = 1%nat /\
  exists t, built t /\ t_default t = Some (bs "longer") /\ t_maxdata t = 0%nat.
Proof.
  split; [vm_compute; reflexivity|].
  eexists. split; [apply (built_default (table_init 1) (Some (bs "longer"))), built_init|].
  vm_compute. auto.
Qed.
