(** * No function takes more memory than there can be

    A request that is granted leaves less than 2^63 bytes in use ([limited]); so memory that is
    [bounded] stays so, although alloca is not limited. *)

From Verif Require Import BaseFacts Base Stdio Table ParseTable BuiltinTables Filter ConfigParse ConfigLoad Prog Warnings Startup Mem Words CTable CParseTable CFilelist CConfig CLoad CReview MemFacts MemSpec WordsSpec WordsFacts CFilelist CConfig CLoad COptions.

Local Open Scope nat_scope.

Definition tame (h h' : heap) : Prop :=
  length h <= length h' /\ (heap_size h' <= heap_size h \/ bounded h') /\
  forall b cells', b < length h -> nth_error h' b = Some (Some cells') -> exists cells, nth_error h b = Some (Some cells) /\ length cells = length cells'.

Lemma tame_refl h : tame h h.
Proof. unfold tame. splits; auto. eauto. Qed.

Lemma tame_trans h h' h'' : tame h h' -> tame h' h'' -> tame h h''.
Proof.
  intros (L & S & K) (L' & S' & K'). unfold tame, bounded in *. splits; [lia|lia|]. intros b cells Lb E.
  destruct (K' b cells ltac:(lia) E) as (c1 & E1 & L1). destruct (K b c1 Lb E1) as (c0 & E0 & L0). exists c0. split; [exact E0|congruence].
Qed.

Lemma set_block_length h i b : length (set_block h i b) = length h.
Proof. revert i. induction h as [|x h IH]; intros [|i]; cbn; auto. Qed.

Lemma nth_set h i b j : i < length h -> nth_error (set_block h i b) j = if j =? i then Some b else nth_error h j.
Proof. revert i j. induction h as [|x h IH]; intros [|i] [|j] L; cbn in *; try lia; auto. apply IH. lia. Qed.

Lemma set_cell_len cells i b : length (set_cell cells i b) = length cells.
Proof. revert i. induction cells as [|x cells IH]; intros [|i]; cbn; auto. Qed.

Lemma tame_write h i cells cells' : nth_error h i = Some (Some cells) -> length cells' = length cells -> tame h (set_block h i (Some cells')).
Proof.
  intros E L. assert (Li : i < length h) by (apply nth_error_Some; congruence). unfold tame. rewrite set_block_length, (size_set _ _ _ _ E L). splits; [lia|lia|].
  intros b c Lb Eb. rewrite nth_set in Eb by exact Li. destruct (Nat.eqb_spec b i) as [->|]; [|eauto]. injection Eb as <-. eauto.
Qed.

Lemma tame_free h i : i < length h -> tame h (set_block h i None).
Proof.
  intros Li. unfold tame. rewrite set_block_length. pose proof (size_free h i). splits; [lia|lia|].
  intros b c Lb Eb. rewrite nth_set in Eb by exact Li. destruct (Nat.eqb_spec b i); [discriminate|eauto].
Qed.

Lemma tame_grow h b : bounded (h ++ [b]) -> tame h (h ++ [b]).
Proof.
  intros B. unfold tame. rewrite app_length. splits; [lia|auto|]. intros j c Lj E. rewrite nth_error_app1 in E by exact Lj. eauto.
Qed.

Lemma tame_bounded h h' : tame h h' -> bounded h -> bounded h'.
Proof. intros (_ & [S|S] & _) B; [unfold bounded in *; lia|exact S]. Qed.

(** Memory is taken and given back. *)
Lemma size_freed h i cells : nth_error h i = Some (Some cells) -> heap_size (set_block h i None) + length cells = heap_size h.
Proof.
  unfold heap_size, list_sum. revert i. induction h as [|x h IH]; intros [|i] E; cbn [nth_error] in E; try discriminate; cbn [set_block map fold_right].
  - injection E as ->. cbn [block_size]. lia.
  - specialize (IH i E). lia.
Qed.

Lemma longer (h : heap) b : length (h ++ [b]) = S (length h).
Proof. rewrite app_length. cbn. lia. Qed.

Lemma tame_scratch (h : heap) n (h' : heap) cells : tame (h ++ [Some (repeat None n)]) h' -> nth_error h' (length h) = Some (Some cells) -> tame h (set_block h' (length h) None).
Proof.
  intros (L & Z & K) E. rewrite longer in L, K. pose proof (size_freed _ _ _ E) as F. rewrite size_app, size_one, repeat_length in Z.
  destruct (K (length h) cells (Nat.lt_succ_diag_r _) E) as (c0 & E0 & L0). rewrite nth_error_app2, Nat.sub_diag in E0 by lia. injection E0 as <-. rewrite repeat_length in L0.
  unfold tame. rewrite set_block_length. splits; [lia|unfold bounded in *; lia|].
  intros b c Lb Eb. rewrite nth_set in Eb by lia. destruct (Nat.eqb_spec b (length h)) as [->|Nb]; [discriminate|].
  destruct (K b c (Nat.lt_lt_succ_r _ _ Lb) Eb) as (c1 & E1 & L1). rewrite nth_error_app1 in E1 by lia. eauto.
Qed.

(** ** Functions on strings *)

Definition mild {A} (m : mem A) : Prop := forall h said a h', m h = (said, Ok (a, h')) -> tame h h'.

Lemma mild_ret {A} (a : A) : mild (mret a).
Proof. intros h said b h' E. injection E as _ _ <-. apply tame_refl. Qed.

Lemma mild_bind {A B} (m : mem A) (k : A -> mem B) : mild m -> (forall a, mild (k a)) -> mild (mbind m k).
Proof.
  intros M K h said b h' E. unfold mbind in E. destruct (m h) as [o [[a h1]| |]] eqn:Em; cbn [tbind] in E; try discriminate.
  destruct (k a h1) as [o1 r1] eqn:Ek. injection E as _ ->. exact (tame_trans _ _ _ (M _ _ _ _ Em) (K a _ _ _ _ Ek)).
Qed.

Lemma mild_quiet {A} (r : res (A * heap)) : (forall x, r <> Ok x) -> mild (fun _ => quietly r).
Proof. intros N h said a h' E. injection E as _ E. now apply N in E. Qed.

Lemma mild_load p : mild (load p).
Proof. intros h said a h'. unfold load. destruct (nth_error h (p_block p)) as [[cells|]|]; try discriminate. destruct (nth_error cells (p_off p)) as [[b|]|]; try discriminate. intros E. injection E as _ _ <-. apply tame_refl. Qed.

Lemma mild_store p b : mild (store p b).
Proof.
  intros h said a h'. unfold store. destruct (nth_error h (p_block p)) as [[cells|]|] eqn:E; try discriminate. destruct (p_off p <? length cells); try discriminate.
  intros X. injection X as _ _ <-. apply (tame_write _ _ _ _ E), set_cell_len.
Qed.

Lemma mild_free p : mild (free p).
Proof.
  intros h said a h'. unfold free. destruct (nth_error h (p_block p)) as [[cells|]|] eqn:E; try discriminate. destruct (p_off p); try discriminate.
  intros X. injection X as _ _ <-. apply tame_free. apply nth_error_Some. congruence.
Qed.

Lemma mild_rounds {V A} (body : V -> mem (V + A)) : (forall v, mild (body v)) -> forall fuel v, mild (rounds fuel body v).
Proof.
  intros B. induction fuel as [|fuel IH]; intros v; cbn [rounds]; [now apply mild_quiet|]. apply mild_bind; [apply B|]. intros [v'|a]; [apply IH|apply mild_ret].
Qed.

Lemma mild_while {V A} (body : V -> mem (V + A)) v : (forall v, mild (body v)) -> mild (while body v).
Proof. intros B h. exact (mild_rounds body B _ v h). Qed.

Ltac mild := repeat first
  [ apply mild_ret | apply mild_load | apply mild_store | apply mild_free | apply mild_bind; [|intros] | apply mild_while; intros | apply mild_quiet; discriminate
  | match goal with |- mild (match ?x with _ => _ end) => destruct x end | progress cbv beta iota zeta | assumption ].

Lemma mild_read p : mild (c_read p).
Proof. unfold c_read. mild. Qed.

Lemma mild_write s : forall p, mild (c_write p s).
Proof. induction s as [|b s IH]; intros p; cbn [c_write]; mild. apply IH. Qed.

Lemma mild_equal p q : mild (c_equal p q).
Proof. unfold c_equal. mild. Qed.

Section calm.

Context {al : allocator} (Lim : limited al).

Lemma mild_malloc n : mild (malloc n).
Proof.
  intros h said a h'. unfold malloc. destruct (refusal_of h n) eqn:E; [discriminate|]. intros X. injection X as _ _ <-. apply tame_grow.
  pose proof (Lim h n E). unfold bounded. rewrite size_app, size_one, repeat_length. lia.
Qed.

Lemma mild_strdup p : mild (c_strdup p).
Proof. unfold c_strdup. apply mild_bind; [apply mild_read|intros]. apply mild_bind; [apply mild_malloc|intros]. apply mild_bind; [apply mild_write|intros]. apply mild_ret. Qed.

Lemma mild_strdup_of s : mild (c_strdup_of s).
Proof. unfold c_strdup_of. apply mild_bind; [apply mild_malloc|intros]. apply mild_bind; [apply mild_write|intros]. apply mild_ret. Qed.

(** ** Functions on structures *)

Definition calm {A} (m : wmem A) : Prop := forall s said a s', m s = (said, Ok (a, s')) -> tame (s_heap s) (s_heap s').

Lemma calm_ret {A} (a : A) : calm (wret a).
Proof. intros s said b s' E. injection E as _ _ <-. apply tame_refl. Qed.

Lemma calm_bind {A B} (m : wmem A) (k : A -> wmem B) : calm m -> (forall a, calm (k a)) -> calm (wbind m k).
Proof.
  intros M K s said b s' E. unfold wbind in E. destruct (m s) as [o [[a s1]| |]] eqn:Em; cbn [tbind] in E; try discriminate.
  destruct (k a s1) as [o1 r1] eqn:Ek. injection E as _ ->. exact (tame_trans _ _ _ (M _ _ _ _ Em) (K a _ _ _ _ Ek)).
Qed.

Lemma calm_bytes {A} (m : mem A) : mild m -> calm (bytes m).
Proof.
  intros M s said a s'. unfold bytes. destruct (m (s_heap s)) as [o [[b h]| |]] eqn:E; cbn; try discriminate. intros X. injection X as _ _ <-. exact (M _ _ _ _ E).
Qed.

Lemma calm_saying t : calm (saying t).
Proof. intros s said a s'. unfold saying. destruct t as [o [[]| |]]; cbn; try discriminate. intros E. injection E as _ _ <-. apply tame_refl. Qed.

Lemma calm_quiet {A} (r : talk (A * store_t)) : (forall x, snd r <> Ok x) -> calm (fun _ => r).
Proof. intros N s said a s' E. destruct (N (a, s')). now rewrite E. Qed.

Lemma calm_still {A} (m : wmem A) : (forall s said a s', m s = (said, Ok (a, s')) -> s_heap s' = s_heap s) -> calm m.
Proof. intros M s said a s' E. rewrite (M _ _ _ _ E). apply tame_refl. Qed.

Lemma calm_members p : calm (members p).
Proof. apply calm_still. intros s said a s'. unfold members. destruct (nth_error (s_heap s) (p_block p)) as [[c|]|]; try discriminate. destruct (p_off p); try discriminate. intros E. now injection E as _ _ <-. Qed.

Lemma calm_words {A} (a : A) (f : store_t -> words) : calm (fun s => done (a, mkStore (s_heap s) (f s))).
Proof. apply calm_still. intros s said b s' E. now injection E as _ _ <-. Qed.

Lemma calm_fetch p i : calm (fetch p i).
Proof. unfold fetch. apply calm_bind; [apply calm_members|]. intros l. destruct (nth_error l i) as [[w|]|]; [apply calm_ret|now apply calm_quiet..]. Qed.

Lemma calm_assign p i w : calm (assign p i w).
Proof. unfold assign. apply calm_bind; [apply calm_members|]. intros l. destruct (i <? length l); [apply calm_words|now apply calm_quiet]. Qed.

Lemma calm_clear p k : calm (clear p k).
Proof. unfold clear. apply calm_bind; [apply calm_members|]. intros l. destruct (k <=? length l); [apply calm_words|now apply calm_quiet]. Qed.

Lemma calm_int_at p i : calm (int_at p i).
Proof. unfold int_at. apply calm_bind; [apply calm_fetch|]. intros [| |]; [apply calm_ret..|now apply calm_quiet]. Qed.

Lemma calm_ptr_at p i : calm (ptr_at p i).
Proof. unfold ptr_at. apply calm_bind; [apply calm_fetch|]. intros [| |]; [apply calm_ret|now apply calm_quiet|apply calm_ret]. Qed.

Lemma calm_deref p : calm (deref p).
Proof. destruct p; [apply calm_ret|now apply calm_quiet]. Qed.

Lemma calm_index i : calm (index i).
Proof. unfold index. destruct (i <? 0)%Z; [now apply calm_quiet|apply calm_ret]. Qed.

Lemma calm_sum a b : calm (int_sum a b).
Proof. unfold int_sum. destruct (_ <=? _)%Z; [apply calm_ret|now apply calm_quiet]. Qed.

Lemma calm_new n k : calm (new_words n k).
Proof. unfold new_words. apply calm_bind; [apply calm_bytes, mild_malloc|]. intros p. apply calm_words. Qed.

Lemma calm_rounds {V A} (body : V -> wmem (V + A)) : (forall v, calm (body v)) -> forall fuel v, calm (wrounds fuel body v).
Proof.
  intros B. induction fuel as [|fuel IH]; intros v; cbn [wrounds]; [now apply calm_quiet|]. apply calm_bind; [apply B|]. intros [v'|a]; [apply IH|apply calm_ret].
Qed.

Lemma calm_while {V A} (body : V -> wmem (V + A)) v : (forall v, calm (body v)) -> calm (wwhile body v).
Proof. intros B s. exact (calm_rounds body B _ v s). Qed.

Ltac calm := repeat first
  [ apply calm_ret | apply calm_int_at | apply calm_ptr_at | apply calm_assign | apply calm_deref | apply calm_index | apply calm_clear | apply calm_sum | apply calm_new | apply calm_saying
  | solve [auto with calm] | apply calm_bytes; first [apply mild_read | apply mild_strdup | apply mild_strdup_of | apply mild_malloc | apply mild_free | apply mild_equal | solve [mild] | solve [auto with calm]]
  | apply calm_bind; [|intros] | apply calm_while; intros | apply calm_quiet; discriminate
  | match goal with |- calm (match ?x with _ => _ end) => destruct x end | progress cbv beta iota zeta ].

Lemma calm_incr p i : calm (incr p i).
Proof. unfold incr. calm. Qed.
Hint Resolve calm_incr : calm.

Lemma calm_rows t : calm (c_rows t).
Proof. unfold c_rows. calm. Qed.
Hint Resolve calm_rows : calm.

Lemma calm_row_key r i : calm (c_row_key r i).
Proof. unfold c_row_key. calm. Qed.
Hint Resolve calm_row_key : calm.

Lemma calm_row_data r i : calm (c_row_data r i).
Proof. unfold c_row_data. calm. Qed.
Hint Resolve calm_row_data : calm.

Lemma calm_table_init n : calm (c_table_init n).
Proof. unfold c_table_init. calm. Qed.
Hint Resolve calm_table_init : calm.

Lemma calm_hash l k : calm (c_table_hash l k).
Proof. unfold c_table_hash. calm. Qed.
Hint Resolve calm_hash : calm.

Lemma calm_find_row t p : calm (c_find_row t p).
Proof. unfold c_find_row. calm. Qed.
Hint Resolve calm_find_row : calm.

Lemma mild_strlen p : mild (c_strlen p).
Proof. unfold c_strlen. apply mild_bind; [apply mild_read|intros; apply mild_ret]. Qed.
Hint Resolve mild_strlen : calm.

Lemma calm_put t k d : calm (c_table_put t k d).
Proof. unfold c_table_put. calm. Qed.
Hint Resolve calm_put : calm.

Lemma calm_resize t r u : calm (c_table_resize t r u).
Proof. unfold c_table_resize. calm. Qed.
Hint Resolve calm_resize : calm.

Lemma calm_table_free t : calm (c_table_free t).
Proof. unfold c_table_free. calm. Qed.
Hint Resolve calm_table_free : calm.

Lemma mild_put_string p w : mild (c_put_string p w).
Proof. unfold c_put_string. apply mild_bind; [apply mild_write|intros; apply mild_ret]. Qed.
Hint Resolve mild_put_string : calm.

Lemma mild_fgets p l : mild (c_fgets p l).
Proof. unfold c_fgets. destruct (fgets_bytes _ _). apply mild_bind; [apply mild_write|intros; apply mild_ret]. Qed.
Hint Resolve mild_fgets : calm.

Lemma mild_scan_word p q o : mild (c_scan_word p q o).
Proof. unfold c_scan_word. apply mild_bind; [apply mild_read|]. intros s. destruct (scan_word s) as [[w n]|]; [|apply mild_ret]. apply mild_bind; [apply mild_put_string|intros; apply mild_ret]. Qed.
Hint Resolve mild_scan_word : calm.

Lemma mild_scan_text p q : mild (c_scan_text p q).
Proof.
  unfold c_scan_text. apply mild_bind; [apply mild_load|]. intros c. destruct (beq c double_quote).
  - apply mild_bind; [apply mild_read|]. intros s. destruct (scan_set double_quote s); [apply mild_put_string|apply mild_ret].
  - apply mild_bind; [apply mild_load|]. intros c'. destruct (beq c' single_quote); (apply mild_bind; [apply mild_read|]); intros s.
    + destruct (scan_set single_quote s); [apply mild_put_string|apply mild_ret].
    + destruct (scan_s s) as [[w n]|]; [apply mild_put_string|apply mild_ret].
Qed.
Hint Resolve mild_scan_text : calm.

Lemma mild_offset p o : mild (c_at_offset p o).
Proof. unfold c_at_offset. mild. Qed.
Hint Resolve mild_offset : calm.

Lemma mild_starts n p t : mild (c_starts n p t).
Proof. unfold c_starts. apply mild_bind; [apply mild_read|intros; apply mild_ret]. Qed.
Hint Resolve mild_starts : calm.

Lemma calm_line l t w p i o : calm (c_parse_line l t w p i o).
Proof. unfold c_parse_line. calm. Qed.
Hint Resolve calm_line : calm.

Lemma calm_parse_loop l t w p fuel : forall input i o, calm (c_parse_loop fuel l input t w p i o).
Proof. induction fuel as [|fuel IH]; intros input i o; cbn [c_parse_loop]; calm; apply IH. Qed.
Hint Resolve calm_parse_loop : calm.

Lemma calm_parse_table l c : calm (c_parse_table l c).
Proof. unfold c_parse_table. calm. Qed.
Hint Resolve calm_parse_table : calm.

Lemma calm_parse_denied n m : calm (c_parse_denied n m).
Proof. unfold c_parse_denied. calm. Qed.
Hint Resolve calm_parse_denied : calm.

Lemma mild_snprintf d n t : mild (c_snprintf d n t).
Proof. unfold c_snprintf. apply mild_bind; [apply mild_write|intros; apply mild_ret]. Qed.
Hint Resolve mild_snprintf : calm.

Lemma calm_give_up t : calm (c_give_up t).
Proof. unfold c_give_up. calm. Qed.
Hint Resolve calm_give_up : calm.

Section review.

Context (literal : str -> ptr) (static : static_table -> ptr) (denied_size : str -> nat) (sys : system).

Lemma calm_table_file p : calm (c_parse_table_file denied_size sys p).
Proof. unfold c_parse_table_file. calm. Qed.
Hint Resolve calm_table_file : calm.

Lemma calm_try p d q : calm (c_try_table denied_size sys p d q).
Proof. unfold c_try_table. calm. Qed.
Hint Resolve calm_try : calm.

Lemma calm_scratch {A} n (m : ptr -> wmem A) : (forall p, calm (m p)) ->
  calm (let$ buf := bytes (c_alloca n) in let$ x := m buf in let$ _ := bytes (free buf) in wret x).
Proof.
  intros M s said a s' E. unfold wbind at 1 in E. unfold bytes at 1, c_alloca in E. cbn [tbind done fst snd] in E. unfold done, quietly in E. cbn [tbind app] in E.
  set (s1 := mkStore _ _) in E. unfold wbind at 1 in E. destruct (m (mkPtr (length (s_heap s)) 0) s1) as [o [[x s2]| |]] eqn:Em; cbn [tbind] in E; try discriminate.
  unfold wbind, bytes, free in E. cbn [p_block p_off] in E. destruct (nth_error (s_heap s2) (length (s_heap s))) as [[cells|]|] eqn:F; cbn in E; try discriminate.
  injection E as _ _ <-. cbn [s_heap]. apply M in Em. exact (tame_scratch _ _ _ _ Em F).
Qed.

Lemma same_rest {A B} (m : wmem A) (k k' : A -> wmem B) s : (forall a s1, k a s1 = k' a s1) -> wbind m k s = wbind m k' s.
Proof. intros E. unfold wbind. destruct (m s) as [o [[a s1]| |]]; cbn [tbind]; [now rewrite E|reflexivity..]. Qed.

Lemma calm_find_table p : calm (c_filter_find_table denied_size sys p).
Proof.
  intros s said a s' E. pose (m := fun buf => let$ table :=
    (match e_datadir (m_env sys) with
     | Some d => c_try_table denied_size sys buf (d ++ bs "/detox/") p
     | None => wret None
     end) in
     match table with
     | Some _ => wret table
     | None =>
       let$ table := c_try_table denied_size sys buf (bs "/usr/share/detox/") p in
       match table with
       | Some _ => wret table
       | None => c_try_table denied_size sys buf (bs "/usr/local/share/detox/") p
       end
     end).
  assert (M : forall buf, calm (m buf)) by (intros buf; unfold m; calm).
  apply (calm_scratch MAX_PATH_LEN m M s said a s'). rewrite <- E. unfold c_filter_find_table, m.
  apply same_rest. intros buf s1. now rewrite wbind_assoc.
Qed.
Hint Resolve calm_find_table : calm.

Lemma calm_builtin x : calm (c_load_builtin static x).
Proof. unfold c_load_builtin. calm. Qed.
Hint Resolve calm_builtin : calm.

Lemma calm_filter_builtin f : calm (c_filter_load_builtin static f).
Proof. unfold c_filter_load_builtin. calm. Qed.
Hint Resolve calm_filter_builtin : calm.

Lemma calm_by_filename f : calm (c_filter_load_builtin_by_filename literal static f).
Proof. unfold c_filter_load_builtin_by_filename. calm. Qed.
Hint Resolve calm_by_filename : calm.

Lemma calm_load_table f : calm (c_filter_load_table literal static denied_size sys f).
Proof. unfold c_filter_load_table. calm. Qed.
Hint Resolve calm_load_table : calm.

Lemma calm_review q : calm (c_sequence_review literal static denied_size sys q).
Proof. unfold c_sequence_review. calm. Qed.

End review.

(** ** The lists, the configuration and the options *)

Lemma calm_count l : calm (c_filelist_count l).
Proof. unfold c_filelist_count. calm. Qed.
Hint Resolve calm_count : calm.

Lemma calm_files l : calm (c_files l).
Proof. unfold c_files. calm. Qed.
Hint Resolve calm_files : calm.

Lemma calm_reset l : calm (c_filelist_reset l).
Proof. unfold c_filelist_reset. calm. Qed.
Hint Resolve calm_reset : calm.

Lemma calm_list_init : calm c_filelist_init.
Proof. unfold c_filelist_init. calm. Qed.
Hint Resolve calm_list_init : calm.

Lemma calm_grow l : calm (c_filelist_grow l).
Proof. unfold c_filelist_grow. calm. Qed.
Hint Resolve calm_grow : calm.

Lemma calm_list_put l f : calm (c_filelist_put l f).
Proof. unfold c_filelist_put. calm. Qed.
Hint Resolve calm_list_put : calm.

Lemma mild_raw s : mild (c_raw_strdup_of s).
Proof.
  intros h said a h'. unfold c_raw_strdup_of. destruct (refusal_of h (size_t (strlen s + 1))); [intros E; injection E as _ _ <-; apply tame_refl|].
  destruct (c_strdup_of s h) as [o [[q h1]| |]] eqn:E; cbn [tbind]; try discriminate. intros X. injection X as _ _ <-. exact (mild_strdup_of s _ _ _ _ E).
Qed.
Hint Resolve mild_raw : calm.

Lemma calm_lex r text : calm (c_lex_action r text).
Proof. unfold c_lex_action, c_lex_qstring. calm. Qed.
Hint Resolve calm_lex : calm.

Lemma calm_lex_round input : calm (c_lex_round input).
Proof. unfold c_lex_round. calm. Qed.
Hint Resolve calm_lex_round : calm.

Lemma calm_filter_init c : calm (c_filter_init c).
Proof. unfold c_filter_init. calm. Qed.
Hint Resolve calm_filter_init : calm.

Lemma calm_sequence_init n : calm (c_sequence_init n).
Proof. unfold c_sequence_init. calm. Qed.
Hint Resolve calm_sequence_init : calm.

Lemma calm_config_init : calm c_config_file_init.
Proof. unfold c_config_file_init. calm. Qed.
Hint Resolve calm_config_init : calm.

Lemma calm_copy p : calm (c_copy p).
Proof. unfold c_copy. calm. Qed.
Hint Resolve calm_copy : calm.

Lemma calm_make a : calm (c_make_filter a).
Proof. unfold c_make_filter. calm. Qed.
Hint Resolve calm_make : calm.

Lemma calm_append_filter a v : calm (c_cf_append_filter a v).
Proof. unfold c_cf_append_filter. calm. Qed.
Hint Resolve calm_append_filter : calm.

Lemma calm_find_sequence q n : calm (c_find_sequence q n).
Proof. unfold c_find_sequence. calm. Qed.
Hint Resolve calm_find_sequence : calm.

Lemma calm_append_sequence v : calm (c_cf_append_sequence_list v).
Proof. unfold c_cf_append_sequence_list. calm. Qed.
Hint Resolve calm_append_sequence : calm.

Lemma calm_append_ignore f v : calm (c_cf_append_ignore_entry f v).
Proof. unfold c_cf_append_ignore_entry. calm. Qed.
Hint Resolve calm_append_ignore : calm.

Lemma calm_step q v t m : c_parse_step q v t = Some m -> calm m.
Proof.
  unfold c_parse_step. destruct q, t; try discriminate; cbv zeta;
    repeat match goal with |- (match ?x with _ => _ end) = _ -> _ => destruct x; try discriminate end; intros E; injection E as <-; calm.
Qed.

Lemma calm_yyerror {A} v l t : calm (@c_yyerror A v l t).
Proof. unfold c_yyerror. calm. Qed.
Hint Resolve calm_yyerror : calm.

Lemma calm_yyparse fuel : forall q v line input, calm (c_yyparse fuel q v line input).
Proof.
  assert (Z : forall q v line, calm (match q with Q_top => wret (v, line) | _ => c_yyerror v line [] end)) by (intros; calm).
  induction fuel as [|fuel IH]; intros q v line input; cbn [c_yyparse]; [apply Z|]. destruct input as [|b input]; [apply Z|].
  apply calm_bind; [apply calm_lex_round|]. intros [[[[t|] text] n] rest]; [|apply IH]. destruct (c_parse_step q v t) as [m|] eqn:E; [|calm].
  apply calm_bind; [exact (calm_step _ _ _ _ E)|]. intros [q' v']. apply IH.
Qed.
Hint Resolve calm_yyparse : calm.

Lemma calm_last_sequence q : calm (c_last_sequence q).
Proof. unfold c_last_sequence. calm. Qed.
Hint Resolve calm_last_sequence : calm.

Lemma calm_parse_config files f line name previous : calm (c_parse_config_file files f line name previous).
Proof. unfold c_parse_config_file. calm. Qed.
Hint Resolve calm_parse_config : calm.

Lemma calm_if_short files buf text line name previous : calm (c_parse_if_short files buf text line name previous).
Proof. unfold c_parse_if_short. calm. Qed.
Hint Resolve calm_if_short : calm.

Section load.

Context (literal : str -> ptr).

Lemma calm_or_else files path line name config : calm (c_or_else literal files path line name config).
Proof. unfold c_or_else. calm. Qed.
Hint Resolve calm_or_else : calm.

Lemma calm_builtin_filter c b : calm (c_generate_builtin_filter literal c b).
Proof. unfold c_generate_builtin_filter. calm. Qed.
Hint Resolve calm_builtin_filter : calm.

Lemma calm_generate c : calm (c_generate_filter literal c).
Proof. unfold c_generate_filter. calm. Qed.
Hint Resolve calm_generate : calm.

Lemma calm_generate_sequence n : calm (c_generate_sequence literal n).
Proof. unfold c_generate_sequence. calm. Qed.
Hint Resolve calm_generate_sequence : calm.

Lemma calm_generate_wipeup z : calm (c_generate_wipeup_filter z).
Proof. unfold c_generate_wipeup_filter. calm. Qed.
Hint Resolve calm_generate_wipeup : calm.

Lemma calm_spoof : calm (c_spoof_config_file literal).
Proof. unfold c_spoof_config_file. calm. Qed.
Hint Resolve calm_spoof : calm.

Lemma calm_load env check : calm (c_config_file_load literal env check).
Proof. unfold c_config_file_load. calm. Qed.

End load.

Lemma calm_read_all args : calm (c_read_all args).
Proof. induction args as [|p args IH]; cbn [c_read_all]; calm. Qed.
Hint Resolve calm_read_all : calm.

Lemma calm_options_init : calm c_options_init.
Proof. unfold c_options_init. calm. Qed.
Hint Resolve calm_options_init : calm.

Lemma calm_usage o : calm (c_usage o).
Proof. unfold c_usage. calm. Qed.
Hint Resolve calm_usage : calm.

Lemma calm_help o : calm (c_help o).
Proof. unfold c_help. calm. Qed.
Hint Resolve calm_help : calm.

Lemma calm_code package o c : calm (c_option_code package o c).
Proof. unfold c_option_code, w_exit_with, wfail. calm. Qed.
Hint Resolve calm_code : calm.

Lemma calm_codes package o cs : calm (c_option_codes package o cs).
Proof. induction cs as [|[c message] cs IH]; cbn [c_option_codes]; calm. Qed.
Hint Resolve calm_codes : calm.

Lemma calm_put_files o files : calm (c_put_files o files).
Proof. induction files as [|f files IH]; cbn [c_put_files]; calm. Qed.
Hint Resolve calm_put_files : calm.

Lemma calm_options package posixly sequence argv : calm (c_parse_options_getopt package posixly sequence argv).
Proof. unfold c_parse_options_getopt, w_exit_with. calm. Qed.

End calm.
