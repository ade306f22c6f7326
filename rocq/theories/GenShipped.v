(** * The shipped src/builtin_table.c *)

From Verif Require Import Base BaseFacts CleanSpec Table BuiltinTables Stdio ParseTable ParseTableSpec ParseTableProofs TableFiles
  Options GenBuiltin GenSpec GenProofs BuiltinSource.

Local Open Scope nat_scope.

(** ** A reader of table texts *)

Fixpoint hex_digits (s : str) : option (list N) :=
  match s with
  | [] => Some []
  | c :: r =>
    match digit_value 16 c, hex_digits r with
    | Some d, Some ds => Some (d :: ds)
    | _, _ => None
    end
  end.

Definition ucnb (cp : N) : bool :=
  ((0xA0 <=? cp) || (cp =? 0x24) || (cp =? 0x40) || (cp =? 0x60))%N && negb ((0xD800 <=? cp)%N && (cp <=? 0xDFFF)%N) && (cp <=? 0x10FFFF)%N.

Definition named (n : nat) (s : str) : option (N * str) :=
  if (n <=? length s) then
    match hex_digits (firstn n s) with
    | Some ds => let cp := positional 16 ds in if ucnb cp then Some (cp, skipn n s) else None
    | None => None
    end
  else None.

Fixpoint denote (fuel : nat) (s : str) : option str :=
  match fuel with
  | O => None
  | S fuel' =>
    match s with
    | [] => Some []
    | c :: r =>
      if beq c new_line then None
      else match (if beq c back_slash then match r with u :: r' => if beq u "u" then Some (4, r') else if beq u "U" then Some (8, r') else None | [] => None end else None) with
      | Some (n, r') =>
        match named n r' with
        | Some (cp, rest) => option_map (app (encode cp)) (denote fuel' rest)
        | None => None
        end
      | None => option_map (cons c) (denote fuel' r)
      end
    end
  end.

Lemma digit_value_digit c d : digit_value 16 c = Some d -> digit c d /\ (d < 16)%N.
Proof.
  assert (Q : forall c, match digit_value 16 c with
      | Some d => (d <? 16)%N && (match nth_error (bs "0123456789abcdef") (N.to_nat d) with Some x => beq x c | None => false end ||
                                  match nth_error (bs "0123456789ABCDEF") (N.to_nat d) with Some x => beq x c | None => false end)
      | None => true end = true).
  { apply byte_sweep. vm_compute. reflexivity. }
  intros E. specialize (Q c). rewrite E in Q. apply andb_prop in Q. destruct Q as [L Q]. apply N.ltb_lt in L. split; [|exact L].
  apply orb_prop in Q. destruct Q as [Q|Q]; [left|right]; destruct (nth_error _ _); try discriminate; apply beq_eq in Q; now subst.
Qed.

Lemma hex_digits_sound s ds : hex_digits s = Some ds -> digits 16 s (positional 16 ds).
Proof.
  intros E. exists ds. split; [|split; [|reflexivity]]; revert ds E; induction s as [|c s IH]; intros ds E; cbn [hex_digits] in E.
  all: try (injection E as <-; constructor).
  all: destruct (digit_value 16 c) as [d|] eqn:D; [|discriminate]; destruct (hex_digits s) as [l|]; [|discriminate]; injection E as <-.
  all: apply digit_value_digit in D; destruct D; constructor; auto.
Qed.

Lemma ucnb_sound cp : ucnb cp = true -> ucn cp.
Proof.
  unfold ucnb, ucn. rewrite !andb_true_iff, !orb_true_iff, negb_true_iff, !N.eqb_eq, !N.leb_le, andb_false_iff, !N.leb_gt. intros [[A B] C].
  split; [tauto|]. split; [lia|exact C].
Qed.

Lemma named_sound n s cp rest : named n s = Some (cp, rest) ->
  exists ds, s = ds ++ rest /\ length ds = n /\ digits 16 ds cp /\ ucn cp.
Proof.
  unfold named. destruct (Nat.leb_spec n (length s)) as [L|L]; [|discriminate].
  destruct (hex_digits (firstn n s)) as [ds|] eqn:E; [|discriminate]. destruct (ucnb (positional 16 ds)) eqn:U; [|discriminate].
  intros H. injection H as <- <-. exists (firstn n s). split; [now rewrite firstn_skipn|]. split; [rewrite firstn_length; lia|].
  split; [now apply hex_digits_sound|now apply ucnb_sound].
Qed.

Lemma denote_sound fuel : forall s d, denote fuel s = Some d -> meant s d.
Proof.
  induction fuel as [|fuel IH]; intros s d E; [discriminate|]. cbn [denote] in E. destruct s as [|c r]; [injection E as <-; constructor|].
  destruct (beq c new_line) eqn:N; [discriminate|]. apply beq_neq in N. destruct (beq c back_slash) eqn:K.
  - apply beq_eq in K. subst c. destruct r as [|u r].
    + destruct (denote fuel []) as [t|] eqn:T; [|discriminate]. injection E as <-. constructor; auto. discriminate.
    + destruct (beq u "u") eqn:U; [|destruct (beq u "U") eqn:V].
      * apply beq_eq in U. subst u. destruct (named 4 r) as [[cp rest]|] eqn:Nm; [|discriminate].
        destruct (denote fuel rest) as [t|] eqn:T; [|discriminate]. injection E as <-.
        destruct (named_sound _ _ _ _ Nm) as (ds & -> & L & D & C). apply (meant_name (back_slash :: "u"%byte :: ds)); auto. now constructor.
      * apply beq_eq in V. subst u. destruct (named 8 r) as [[cp rest]|] eqn:Nm; [|discriminate].
        destruct (denote fuel rest) as [t|] eqn:T; [|discriminate]. injection E as <-.
        destruct (named_sound _ _ _ _ Nm) as (ds & -> & L & D & C). apply (meant_name (back_slash :: "U"%byte :: ds)); auto. now constructor.
      * apply beq_neq in U, V. destruct (denote fuel (u :: r)) as [t|] eqn:T; [|discriminate]. injection E as <-.
        constructor; auto. intros _ d q X. injection X as <- <-. auto.
  - apply beq_neq in K. destruct (denote fuel r) as [t|] eqn:T; [|discriminate]. injection E as <-. constructor; auto; easy.
Qed.

Definition compile_row (r : row) : option row :=
  match r_data r with
  | Some d => match denote (S (length d)) d with
    | Some d' => if forallb (fun c => negb (beq c NUL)) d && (length d <=? 1023) then Some (mkRow (r_key r) (Some d')) else None
    | None => None
    end
  | None => None
  end.

Fixpoint compile_rows (rows : list row) : option (list row) :=
  match rows with
  | [] => Some []
  | r :: rest =>
    match compile_row r, compile_rows rest with
    | Some a, Some b => Some (a :: b)
    | _, _ => None
    end
  end.

Lemma compile_rows_sound rows rows' : compile_rows rows = Some rows' -> Forall2 compiles rows rows'.
Proof.
  revert rows'. induction rows as [|r rows IH]; intros rows' E; cbn [compile_rows] in E; [injection E as <-; constructor|].
  destruct (compile_row r) as [a|] eqn:A; [|discriminate]. destruct (compile_rows rows) as [b|]; [|discriminate]. injection E as <-.
  constructor; auto. unfold compile_row in A. destruct (r_data r) as [d|] eqn:D; [|discriminate].
  destruct (denote (S (length d)) d) as [d'|] eqn:M; [|discriminate].
  destruct (_ && _)%bool eqn:Q; [|discriminate]. apply andb_prop in Q. destruct Q as [Q1 Q2]. injection A as <-. split; [reflexivity|].
  exists d, d'. split; [exact D|]. split; [reflexivity|]. split; [now apply denote_sound in M|].
  split; [now apply nonul_dec|now apply Nat.leb_le].
Qed.

Definition plain_text (s : str) : bool := forallb (fun c => negb (beq c quote_mark) && negb (beq c back_slash) && negb (beq c new_line)) s.

Lemma plain_literal s : plain_text s = true -> literal s s.
Proof.
  induction s as [|c s IH]; intros H; [constructor|]. cbn [plain_text forallb] in H. apply andb_prop in H. destruct H as [H T].
  rewrite !andb_true_iff, !negb_true_iff, !beq_neq in H. destruct H as [[A B] C]. constructor; auto.
Qed.

(** ** The four sections *)

Definition source_table (contents : list byte) : option table :=
  match parse_table [] contents with
  | Ok (Some hold) => Some (printed_table hold)
  | _ => None
  end.

Lemma section_declares name contents t hold rows' text :
  source_table contents = Some hold ->
  compile_rows (filter occupied (t_rows hold)) = Some rows' ->
  t_used hold = length (filter occupied (t_rows hold)) ->
  match t_default hold with Some d => plain_text d | None => true end = true ->
  compiled hold rows' = t ->
  table_code name (name ++ bs ".tbl") hold = Ok text ->
  declares name text t (loader_size (N.of_nat (t_used t))).
Proof.
  intros _ C U D <- E. apply compile_rows_sound in C.
  destruct (code_declares name (name ++ bs ".tbl") hold rows' C U) as (text' & E' & Dc).
  - intros d Ed. rewrite Ed in D. now apply plain_literal.
  - rewrite E in E'. injection E' as <-. exact Dc.
Qed.

(** Everything that has to be computed about one section. *)
Definition section_check (name : str) (contents : list byte) : option (str * table) :=
  match source_table contents with
  | None => None
  | Some hold =>
    match compile_rows (filter occupied (t_rows hold)), table_code name (name ++ bs ".tbl") hold, section [] name contents with
    | Some rows', Ok text, Ok text' =>
      if (t_used hold =? length (filter occupied (t_rows hold))) &&
         match t_default hold with Some d => plain_text d | None => true end && str_eqb text text'
      then Some (text, compiled hold rows') else None
    | _, _, _ => None
    end
  end.

Lemma section_check_sound name contents text t : section_check name contents = Some (text, t) ->
  section [] name contents = Ok text /\ declares name text t (loader_size (N.of_nat (t_used t))).
Proof.
  unfold section_check. destruct (source_table contents) as [hold|] eqn:H; [|discriminate].
  destruct (compile_rows _) as [rows'|] eqn:C; [|discriminate]. destruct (table_code _ _ _) as [x| |] eqn:T; try discriminate.
  destruct (section [] name contents) as [x'| |] eqn:S; try discriminate.
  destruct (_ && _ && _)%bool eqn:B; [|discriminate]. intros E. injection E as <- <-. rewrite !andb_true_iff in B. destruct B as [[U D] Q].
  apply Nat.eqb_eq in U. apply str_eqb_eq in Q. subst x'. split; [reflexivity|].
  exact (section_declares name contents _ hold rows' x H C U D eq_refl T).
Qed.

Lemma four_pieces (x y a b c d : str) (p q r s : res str) : p = Ok a -> q = Ok b -> r = Ok c -> s = Ok d ->
  (do a <- p; do b <- q; do c <- r; do d <- s; Ok (x ++ a ++ b ++ c ++ d)) = Ok y -> y = x ++ a ++ b ++ c ++ d.
Proof. intros -> -> -> ->. cbn [bind]. intros E. injection E as <-. reflexivity. Qed.

Theorem shipped_source locale : exists a b c d,
  builtin_table_c = builtin_table_c_in ++ a ++ b ++ c ++ d /\
  (section locale (bs "safe") safe_tbl = Ok a /\ declares (bs "safe") a builtin_safe_table 256) /\
  (section locale (bs "iso8859_1") iso8859_1_tbl = Ok b /\ declares (bs "iso8859_1") b builtin_iso8859_1_table 256) /\
  (section locale (bs "unicode") unicode_tbl = Ok c /\ declares (bs "unicode") c builtin_unicode_table 256) /\
  (section locale (bs "cp1252") cp1252_tbl = Ok d /\ declares (bs "cp1252") d builtin_cp1252_table 256).
Proof.
  assert (A : exists a, section_check (bs "safe") safe_tbl = Some (a, builtin_safe_table)).
  { eexists. vm_compute. reflexivity. }
  assert (B : exists a, section_check (bs "iso8859_1") iso8859_1_tbl = Some (a, builtin_iso8859_1_table)).
  { eexists. vm_compute. reflexivity. }
  assert (C : exists a, section_check (bs "unicode") unicode_tbl = Some (a, builtin_unicode_table)).
  { eexists. vm_compute. reflexivity. }
  assert (D : exists a, section_check (bs "cp1252") cp1252_tbl = Some (a, builtin_cp1252_table)).
  { eexists. vm_compute. reflexivity. }
  destruct A as (a & A), B as (b & B), C as (c & C), D as (d & D).
  apply section_check_sound in A, B, C, D. destruct A as [A A'], B as [B B'], C as [C C'], D as [D D'].
  assert (L1 : section locale (bs "safe") safe_tbl = section [] (bs "safe") safe_tbl) by (vm_compute; reflexivity).
  assert (L2 : section locale (bs "iso8859_1") iso8859_1_tbl = section [] (bs "iso8859_1") iso8859_1_tbl) by (vm_compute; reflexivity).
  assert (L3 : section locale (bs "unicode") unicode_tbl = section [] (bs "unicode") unicode_tbl) by (vm_compute; reflexivity).
  assert (L4 : section locale (bs "cp1252") cp1252_tbl = section [] (bs "cp1252") cp1252_tbl) by (vm_compute; reflexivity).
  exists a, b, c, d. rewrite L1, L2, L3, L4. split; [|exact (conj (conj A A') (conj (conj B B') (conj (conj C C') (conj D D'))))].
  assert (E : (do a <- section [] (bs "safe") safe_tbl; do b <- section [] (bs "iso8859_1") iso8859_1_tbl;
               do c <- section [] (bs "unicode") unicode_tbl; do d <- section [] (bs "cp1252") cp1252_tbl;
               Ok (builtin_table_c_in ++ a ++ b ++ c ++ d)) = Ok builtin_table_c) by (vm_compute; reflexivity).
  exact (four_pieces _ _ _ _ _ _ _ _ _ _ A B C D E).
Qed.
