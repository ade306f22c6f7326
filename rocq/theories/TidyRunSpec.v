(** * Vocabulary for runs of the whole program out of the box *)

From Verif Require Import Base CleanString Filter Spoof SequenceSpec Prog File FS FileSpec TidySpec SeveralSpec
  ConfigLoad ConfigLoadSpec Options OptionsSpec Startup Main MainSpec.

Local Open Scope nat_scope.

(** [plain_request sy argv ws fs name]: the command line asks, with the wishes [ws], that the
    files [fs] be renamed; there is no configuration file; [name] is the shipped sequence that is
    used. *)
Record plain_request (sy : system) (argv : list str) (ws : list wish) (fs : list str) (name : str) : Prop := {
  pr_asks : asks (posix_env sy) (tl argv) ws fs;
  pr_program : ~ exists a r, argv = a :: r /\ called a (bs "inline-detox");
  pr_mode : ~ In Inline_mode ws;
  pr_earnest : ~ In Dry_run ws;
  pr_config : last_of config_named ws None;
  pr_no_files : config_paths (m_env sy) = [];
  pr_name : In name [bs "default"; bs "lower"; bs "utf_8"];
  pr_wanted : wanted_sequence sy ws (Some name) \/ name = bs "default" /\ wanted_sequence sy ws None;
  pr_locale : name = bs "lower" -> p_ctype (m_platform sy) = c_locale
}.

(** Distinct files of the kinds that are dealt with, none in another or on the path to one *)
Definition apart (w : world) (ws : list wish) (t : tree) (args : list (str * inode)) : Prop :=
  NoDup (map snd args) /\
  forall p i, In (p, i) args ->
    (kind_of w i = KDir \/ kind_of w i = KReg \/ In Special ws) /\ stands w t (map snd args) p i.

(** The directories that are gone through: [i] and, with -r, those below that have no hidden
    name and are not called {arch} *)
Inductive gone_through (w : world) (ws : list wish) (t : tree) (i : inode) : inode -> Prop :=
| gt_start : gone_through w ws t i i
| gt_next l : gone_through w ws t i (l_dir l) -> In l (links t) -> In Recursive ws ->
    kind_of w (l_target l) = KDir -> ~ hidden (l_name l) -> l_name l <> bs "{arch}" -> gone_through w ws t i (l_target l).

(** What the sequence [name] makes of a name *)
Definition makes (pf : platform) (name n c : str) : Prop :=
  exists seq, shipped name seq /\ sequence_run_filters pf (Some seq) (Some n) = Ok (Some c).

(** The entry has a portable name, or the name that it should have is empty or taken. *)
Definition tidy (w : world) (pf : platform) (name : str) (t : tree) (l : link) : Prop :=
  portable (l_name l) \/
  exists c, makes pf name (l_name l) c /\ portable c /\
    (c = [] \/ exists j, lookup w t (l_dir l) c = Some j /\ (j <> l_target l \/ (1 < st_nlink (stat_of w t (l_target l)))%N)).

(** [q] leads to [i], and would not be renamed by the sequence [name]. *)
Definition at_home (w : world) (pf : platform) (name : str) (t : tree) (q : str) (i : inode) : Prop :=
  lstat_inode w t q = Some i /\
  forall dir b c, last_component q dir b -> b <> [] -> b <> bs "." -> b <> bs ".." -> makes pf name b c ->
    c = b \/ exists j, lstat_inode w t (dir ++ c) = Some j /\ (j <> i \/ (1 < st_nlink (stat_of w t i))%N).
