# Formal model of detox: design

Subject: dharple/detox, source in /repo (C). Prover: Coq 8.16.1, standard library only.

## Approach

* A C string is a `list byte` (`Coq.Init.Byte.byte`) standing for the bytes before the
  terminating NUL. A pointer into a string is the remaining suffix (a zipper where the
  code walks backwards).
* Every function that could misbehave returns `res A := Ok a | UB why | Exit code`.
  Writing past a `malloc`ed size, reading before a buffer etc. is `UB`, so "the filter is
  memory safe" is a theorem of the form `f s = Ok ..` and not an artefact of the encoding.
* Functions that talk to the system (`parse_file`, `parse_dir`, `main`, config loading)
  are programs in a small free monad whose nodes are system calls (`lstat`, `rename`,
  `opendir`, `readdir`, reading a file, printing). A file-system model (inodes, directory
  entries, devices, symbolic links, path resolution) gives the calls their meaning;
  `readdir` and failures are left to an arbitrary environment. Properties "at every crash
  point" quantify over all prefixes of the call sequence.
* The unbounded `readdir` loop and recursion use a fuel argument; theorems hold for every
  fuel, so they cover every finite prefix of every real run.
* Model files contain definitions only, each citing the lines it models. Specification
  files state what is wanted without using the model's helpers. Proof files prove;
  `Prop*.v` contain the final statements, `Print Assumptions`, and an `Example`
  beside each theorem.

## Files

Model (definitions only):

| file | models |
|---|---|
| Base.v | bytes, C strings, buffers, outcomes |
| Table.v | src/table.c |
| BuiltinTables.v | src/builtin_table.c (as values) |
| CleanString.v, CleanUtf8.v | src/clean_string.c, src/clean_utf_8.c |
| Filter.v | src/filter.c, src/sequence.c |
| Warnings.v | the same functions and the filters, with what they print on stderr |
| Filelist.v | src/filelist.c |
| Prog.v, FS.v | programs issuing system calls; a POSIX file system giving the calls their meaning |
| File.v | src/file.c: parse_file, parse_dir, parse_special, ignore_file; the work loop of src/detox.c |
| Inline.v, Stdio.v | src/file.c: parse_inline; the parts of stdio it and the table reader use |
| ParseTable.v | src/parse_table.c |
| ConfigLex.v, ConfigParse.v | src/config_file_lex.l, src/config_file_yacc.y |
| ParserTables.v, FlexScanner.v, BisonParser.v | src/config_file_lex.c, src/config_file_yacc.c, as flex and bison generated them |
| ConfigLoad.v, Spoof.v | src/config_file.c, src/config_file_spoof.c |
| Options.v | src/parse_options.c, with getopt_long |
| Startup.v | src/parse_options.c, src/config_file.c, src/config_file_yacc.y, src/parse_table.c and src/filter.c, with all that they print until the work begins |
| Generated.v | src/config_file.c on top of the generated scanner and parser, with what they print |
| Main.v | src/detox.c, src/config_file_dump.c |
| Mem.v | memory as blocks of bytes, and the C library functions on strings |
| CFilters.v | src/clean_string.c, src/clean_utf_8.c, src/filter.c and src/sequence.c once more, on names in memory |
| Words.v, CTable.v, CFilelist.v | structures and arrays in memory; src/table.c and src/filelist.c once more, on them |
| CParseTable.v | src/parse_table.c once more, with its buffers and the table in memory |
| CFile.v, CMain.v | src/file.c and the work loop of src/detox.c once more, on names in memory |
| CWork.v | the same, with the sequence and the lists in memory |
| COptions.v | src/parse_options.c once more, with the options in memory |
| CDump.v | src/config_file_dump.c and src/detox.c:56-71 with options and configuration in memory |
| CWhole.v | src/detox.c as a whole, with everything above in one memory |
| GenBuiltin.v | src/generate_builtin_table.c, bin/generate-builtin.sh |
| GenMain.v | src/generate_builtin_table.c print by print, with its main |
| CGenerate.v | the same once more, with tables and texts in memory |
| Escape.v | src/escape_utf_8.c |
| CEscape.v | the same once more, with the table, the sequence and the buffers in memory |
| CheckTable.v | src/check_table.c, src/table_dump.c |
| CCheck.v | the same once more, with the tables and the buffers in memory |
| TableFiles.v, ConfigFiles.v, BuiltinSource.v | the texts of table/*.tbl, etc/detoxrc, src/builtin_table.c(.in), copied from /repo |

Specifications (no use of the model's helpers): TableSpec.v, CleanSpec.v, Utf8Spec.v,
SequenceSpec.v, FileSpec.v, InlineSpec.v, ParseTableSpec.v,
TableFileSpec.v, ConfigSpec.v, ConfigLoadSpec.v,
OptionsSpec.v, MainSpec.v, RunSpec.v, InlineRunSpec.v, GenSpec.v, EscapeSpec.v,
CheckSpec.v, TidySpec.v, WarningsSpec.v, StartSpec.v,
MemSpec.v, ChainSpec.v, WordsSpec.v, TablesSpec.v, FilesSpec.v, LoadSpec.v, LinkedSpec.v,
CLoadSpec.v, CReviewSpec.v, CRunSpec.v, CWorkSpec.v, COptionsSpec.v, CWholeSpec.v, CCheckSpec.v,
CGenerateSpec.v, CEscapeSpec.v, SeveralSpec.v, GrowthSpec.v,
TidyRunSpec.v, DrySpec.v.

Proofs: the files *Proofs.v, *Facts.v, CSim.v, Play.v, SteadyPlay.v and
GenShipped.v. Final statements, each with `Print Assumptions` and examples beside it: Prop*.v. The theorems of each property are
listed in MANIFEST.json. A theorem named `..._refuted` shows that the property as one would
want it fails for the code as it is.

## Plan per property

* C01-C04: refinement of the row array to a finite map, by an invariant over histories of
  puts ("every key sits in its hash slot, or its hash slot belongs to another key and all
  rows before it are occupied"; keys unique; used <= length; max length bound).
* C05-C07: induction on the name; the buffer is tracked as capacity and bytes written;
  built-in tables are decided over all 256 byte values and lifted by induction. Overruns
  are exhibited as `_refuted` witnesses of the unconditional claim.
* C08, C09: per-byte decision plus concatenation; validity of UTF-8 through an independent
  grammar of RFC 3629 sequences.
* C10-C12: the filter is related to an independent unit-splitting specification by strong
  induction on length; buffer use by counting; idempotence through unit structure.
* C13-C16: independent specifications (encoder relation, run decomposition, explicit
  prefix+extension description, pointwise map), induction on strings.
* C17-C19: list induction on the filter list, closure lemmas per filter.
* C20-C29: weakest-precondition style predicate over the free monad, proved sound for the
  small-step semantics; invariants over directory entries. C22, C26 are exhibited by
  concrete interleavings/walks as well as characterised.
* C30-C32: stream induction on the remaining input, zipper for the seek-back loop.
* C33: refinement of the list to (items, cursor).
* C34: invariant over definition histories. C35: printer/parser round trip by induction,
  through the lexer. C36: totality of the parser function and case analysis.
* C37, C45: closed computation on embedded texts (the domain is the one shipped file),
  lifted to all keys for the tables.
* C38-C40, C47, C48: case analysis of the corresponding programs.
* C41-C44, C46: round trip and totality of the line scanner, induction on lines.
* C49: induction on the text, against a definition of C string literals; the table through
  the invariant of C01-C04. C60: closed computation on the two texts.
* C50-C59, C61: found on the way; runs exhibited, or the invariants of C20-C29 carried over
  to the whole program.

* C62: the flex automaton is run against automata for the single rules, a bisimulation over
  its reachable states decided by computation; the buffer by an invariant (what is in it and
  what is unread is the input). C63: every reachable stack is described by a relation to the
  states of the grammar's parser, one lemma per state and token.

* C65: inversion of the traces of each program piece, and induction on the derivations of
  the grammar in RunSpec.v for the converse. C66-C68: from the grammar, and from predicates
  on all calls of a program. C69: a predicate on all stops, with the history of calls.

* C70: the table's contents by induction on the loops that fill it (nothing is computed over
  the 1.1 million rows), the text through C10's reading of UTF-8 and C31. C71: a predicate on
  all prints and stops of the program. C72: induction on the text against the grammar of
  literals. C73: closed computation, lifted to all keys and locales.

* C74: as C65, with the abnormal ends in the grammar (InlineRunSpec.v); a program that only
  prints has one run, so existence in the grammar gives the converse.

* C75: the meaning of a line as a relation (TableFileSpec.v), each part of it equivalent to
  one scanf conversion; the pieces of a file by induction on its length.

* C76-C78: each line of the file is related to its meaning (C75) by the lemmas about scanf;
  the counters through the invariant of C01-C04, extended by where every entry lies. That
  the description leaves no choice is proved by induction on it.

* C79, C80: induction on the grammar of complete runs (RunSpec.v), in a file system whose
  readdir returns every entry that stays (TidySpec.v). A successful rename changes the name
  of one entry and nothing else, so entries that are in order stay so; what happens in one
  directory is framed by "only entries below it have changed". For the second run the tree
  is constant.

* C81: the functions that also print (Warnings.v) have the results of those that do not;
  their messages by induction on the name, against a description along the lines of C10.

* C82: each part of the start (options, files, tables) is described by a relation
  (StartSpec.v) that has an instance for every start; its instances are what the program
  does, so there is only one. The first token out of place through the viable prefixes of
  the grammar; lines by counting newlines in the text read.

* C83-C85: the functions on memory are related to those on lists. For the filters by
  induction along the list version's zipper, with the buffers' contents as invariant; for the
  programs by a simulation (CSim.v) that carries the heap, the trace so far and what is lost.
  "Memory left" is an arbitrary predicate on heap and size, so failure is possible anywhere.

* C86: the parser of C63 once more, next to the line counter and the token text; the
  generated scanner's third action is the one that counts. C84 and C85 are about the program
  with this parser in it.

* C87: from the descriptions of single filters (C08, C09, C10), by induction on the name; what
  utf_8 makes of a concatenation of characters is the concatenation.

* C88, C89: a table or a list is described by where its parts lie in memory and which blocks
  it owns (`table_at`, `list_at`); every function keeps the description, by induction on its
  loops. The number of blocks owned, with those of replaced texts, is the number of live blocks.

* C90: the loop of parse_table keeps a description of the table, the two buffers and the number
  and size of the blocks allocated since; a line does what `means` says of it (C55).

* C91: the static variables of the parser, the position and the strings read are described
  next to those of the list version (`under_way`, `at_position`); a token keeps the
  description. Appending to a chain changes the link of its last structure only. What is lost
  is counted along the tokens, then along the grammar.

* C92: the built-in configuration is a list of allocations, each given by its size and members
  (`arena`), which a symbolic run yields; that the structures there are the configuration is
  then computed. The search keeps a description of the result so far and the buffer for paths.

* C93: loading a table is appending to memory (`extends`), the review changes one member of
  each filter (`touches`); the tables of the filters done are kept by what follows. Filters
  from files and from the built-in configuration are of known kinds (an invariant of the
  parser). Static tables may have texts in common (`table_seen`); copying them works as well.
* C94: the functions on words and those of C83 on bytes with filters in lists run side by side
  (`lockstep`): same messages, same heap, same end. The words keep the invariant that the
  tables are the same but for their counters, which grow by one for each byte at most.
* C95: as C84, a simulation between programs (`wsim`), with a third way out: so many names that
  a counter may have overflowed (`worn`). A name is paid for when lstat is called for it, or when
  the stream it is in is read; the number of lookups so far is never more than what was paid.
* C96: getopt_long with addresses returns what it returns without (`alike_code`); while the options
  are read memory only grows, but for the options; then the list of files (C89's `list_put`).
* C97: induction along the linked sequences and filters; addresses of sequences are distinct, so
  the comparison with sequence_to_use holds at the chosen position only (`marked`).
* C98: the steps of C96, C92, C97, C93 and C95 one after the other in one memory (`wsim_follows`);
  what an earlier step has made lies in blocks that later ones do not touch. That memory stays
  within what can be addressed is shown apart (CTame.v): every successful malloc keeps it so.
* C99: the invariant of C90's loader with the counters of the table left open (`parsing`, CParseTableProofs.v);
  a number for the texts that were replaced is carried along (`replacing`, `defaults_lost`).
* C100: C90, C88's table_resize and a loop in which each round adds one block (`generate_rounds`);
  every code of a file is below 2^31 (`codes_small`), so that max_key + 1 overflows for one code only.
* C101: each round of the loops that fill the table is one or two lookups and, for a character
  without a text, one more block of at most 11 bytes (`stocked`); then C95's parse_inline.
* C102: what is done for one argument (C79) changes entries only in its tree and the entry that
  it has in its own directory (`effect`, TidyProofs7.v). The paths of the other arguments use none of these,
  and in their trees nothing changes, so that `separate` and `settled` survive.
* C103: for any table by the length of its longest text. For the shipped sequences the separators
  that wipeup keeps are counted (`kept`): a unit ("_and_") that begins with a separator costs one
  more after a character that is none (`owes`), which each of the 256 bytes can afford.
* C104: C102 with the options and the list of ignored names ({arch} among them) that start-up without
  configuration files gives, and C02's portable names for the sequences default, lower and utf_8.
* C105: along RunSpec's grammar of a run, with the tree unchanged, each path that is come to gives its
  line; conversely each line comes from a path that was come to. For the comparison with a run in
  earnest: up to its first rename, that run goes through the same tree.

## Trusted base

* Coq's kernel (8.16.1), including its `vm_compute` machine. No axiom is used:
  `Print Assumptions` says "Closed under the global context" for every theorem in Prop*.v.
* The reading of the C code recorded in the comments of the model.
* The specification files.
* The texts and tables copied from /repo. C60 ties the values in BuiltinTables.v to the text
  of src/builtin_table.c; C37 ties Spoof.v to the text of etc/detoxrc.

### What is modelled, and where it is simplified

* Memory: sizes are computed in size_t arithmetic modulo 2^64 where the code computes them
  (filters, generator); writes outside a buffer, reads before or behind one, reads of
  variables never set and uses of null pointers are outcomes of their own (`UB`). Counters of
  type int do not overflow, except where a theorem speaks of it (C61).
* Lifetime of memory: most theorems are about functions on lists, where allocation succeeds
  and nothing is freed. C83-C85 tie them to functions on memory: malloc hands out fresh blocks
  of bytes not yet written, or fails and ends the program (src/wrapped.c); every read and write
  is checked against its block, the bytes written and free. Modelled so are the names: the
  filters, the sequences, parse_file, parse_dir, parse_special, parse_inline and the main loop.
  Options, configuration, tables and the array of src/filelist.c are lists there too; the
  copies of the file names are made after the start, not while the options are read. C88 to
  C90 are about src/table.c, src/filelist.c and src/parse_table.c in memory by themselves: members of structures
  and elements of arrays are words beside the heap, with their size on a 64-bit system counted
  in bytes; casts of an int or a pointer to the other are undefined. The memory of a FILE and of
  the locale is the library's. C91 is about parse_config_file in the same way (CConfig.v), with
  the scanner and the parser as in ConfigLex.v and ConfigParse.v; their buffers and stacks are
  those of flex and bison. C92 is about config_file_load with the built-in configuration
  (CLoad.v); string literals are blocks that are there before. C93 is about src/sequence.c:28-88
  and src/filter.c:30-184 (CReview.v); the static tables are there before, alloca always
  succeeds and its memory is gone at the return, a directory opened as a table is an empty
  file, and the size of a file that cannot be opened is a parameter. C94 is about
  src/filter.c:186-232 and src/sequence.c:98-124 with the table-driven filters (CRun.v). C95 is about
  src/file.c and src/detox.c:88-130 (CWork.v); the flags among the options, d_name and struct stat
  are not in the memory of the model. C96 is about src/parse_options.c:115-245 (COptions.v): what
  getopt_long and basename return is computed from the strings in argv, and the NUL that basename
  may write over trailing slashes of argv[0] is not written. C97 is about src/config_file_dump.c
  and src/detox.c:56-71 (CDump.v), where the text is printed at once. C98 joins C92 to C97 to the whole of main (CWhole.v);
  there the flags among the options are read from memory once, before the work, and the tests in
  src/detox.c:38-41 and 45-48 for a NULL that is never returned are left out. C99 is about
  src/check_table.c and src/table_dump.c (CCheck.v), C100 about src/generate_builtin_table.c
  (CGenerate.v); the arguments are lists. C101 is about src/escape_utf_8.c (CEscape.v), whose loop
  counters are integers without overflow. A freed
  address is never reused. The sum of all sizes in use is less than 2^63 (`limited`), and no
  path component, line or argument has more than that many bytes (`fair`, `fits`).
* Platform: signedness of char and the ctype functions of the locale are parameters.
  isspace and strncasecmp (in the table reader) are those of the C locale. The ctype
  functions in force when names are cleaned are one parameter, although loading a table
  calls setlocale in the middle of the setup. isxdigit, isupper and tolower are called with a
  char that may be negative; the model takes them to answer for the byte, as glibc does.
* System calls: a program is a tree of calls (lstat, rename, opendir, readdir, closedir,
  printing, reading a file or the environment). `runs` gives it every behaviour of an
  arbitrary environment, `alone` those of the file system model with nobody else active,
  failures allowed where the theorem says so. readdir returns the entries in any order, may
  omit or repeat entries that are renamed meanwhile. C79 and C80 add directory streams:
  readdir returns names that are in the directory, and the end only after every entry that
  has been there under one name since opendir. The recursion is bounded by fuel; all
  theorems hold for every fuel, and C65 shows that fuel does not matter to runs with fewer
  calls than fuel. printf to a closed or full stdout is not modelled.
  A failing lstat leaves the stat buffer as it was; fprintf does not alter errno.
* Configuration files and table files are read at once, and do not change while the program
  starts. The path of a table is a regular file (a directory reads as an empty table).
* The scanner and the parser of configuration files are modelled twice: from the .l and .y
  files (longest match, first rule; the grammar's language with its actions), and from the
  generated C files with their tables, buffer and stacks. C62-C64 prove that the second is
  the first, for files of up to 2^30-2 bytes (beyond, doubling the buffer can overflow an
  int), and C86 does so including their messages. The theorems about configuration files use
  the first, those about the program in memory (C84, C85) the second. A read of the file returns any
  number of bytes, at least one before the end; read errors are not modelled, nor is the
  growth of the parser stack beyond YYINITDEPTH, which C63 shows not to happen, nor are
  yychar's error recovery (yyerror exits).
* getopt_long is glibc's, with permutation unless POSIXLY_CORRECT is set, and the build has
  HAVE_GETOPT_LONG. Its messages are those of glibc in English, since setlocale has not been
  called yet. basename is libgen's, which cuts trailing slashes off argv[0].
* check-table: what printf makes of a double with "%0.2f" is a parameter; the default of a
  table without one is printed as "(null)", as glibc does. The file is one thing when it is
  read first, and may be another one when it is read again.
* stdout and stderr are modelled from the start of the program to its end; what is printed
  on one of them by several calls in a row is one text. The order of texts on different
  streams is that of the calls (buffering is not modelled). The counter of lines is a
  natural number. Which paths that cannot be opened stat does find, and what strerror says
  of them, is a parameter.
* C literals (GenSpec.v): the part of C11 6.4.3-6.4.5 that the generator uses, UTF-8 as
  execution character set, no trigraphs.

### What is not modelled

What is printed when built with DEBUG, bin/ except generate-builtin.sh, the legacy tables, the man pages, the build system and the test suite.

## The log of wrong programs

seeded/LOG.jsonl has one line for each edit of a definition that was tried in a scratch copy. How to
read it:

* A lemma whose proof breaks is admitted and the build goes on; `theorems_failed` are the theorems
  whose `Print Assumptions` then is not empty. So it says that a proof no longer goes through, not that
  the theorem is false of the edited program. Harmless edits ("a control", "still true") make proofs
  fail as well.
* A proof that runs out of time, or in the later runs of memory, counts as failed.
* Some runs stopped early: the edited definition or a statement about it was not well typed, or the
  memory ran out. They show nothing beyond the theorems listed; the note says so.
* Some runs rebuilt only part of the development; the note names the files. Where the claim of such
  a line says that a theorem of another file fails, that was not checked.
* Correction: earlier versions of the log left out the runs that stopped and three others, among them
  the first tries of two edits of the memory model (Words.v) that no theorem noticed until C88_freed,
  C89_freed and C88_new_members were added. For two runs that had stopped (w_main without c_sequence_review,
  dir_loop without the test for -r) they listed theorems that had not been seen to fail. Both lines
  now say that the run stopped. The first edit was run again in a well typed form, the second with
  less memory; what these runs showed has lines of its own.
* Edits that did not apply (text not found, or found twice) are left out.

## Findings

Behaviour of the code that the proofs brought to light; the theorem that exhibits it is
named where there is one.

* Tables: replacing an entry uses up a row (C02); the default translation does not count for
  the maximum length, so the filters can write past their buffers with a table whose default
  is longer than its entries (C07).
* safe: with signed char the key of a byte above 0x7f is sign-extended, so entries for such
  bytes have no effect (PropClean.v).
* utf_8: an over-long NUL makes the filter write past its buffer (C11); over-long encodings
  and surrogates are accepted, an over-long '/' comes out as such (C12, C19).
* uncgi turns %00 into the end of the name and %2F into a slash (C13, C19, C23).
* max_length gives up when the extension alone reaches the limit, and can cut a UTF-8
  character (C15).
* The shipped legacy sequence encodes twice (C09).
* parse_file: the existence check is not atomic (C22) and takes every failure of lstat for
  absence (C50). A name that cleans to nothing is announced and attempted (C51).
* parse_dir uses the stat buffer also when lstat has failed.
* ignore_file shares the cursor of the list, so that an ignored name after another one is
  processed (C26); a second run can therefore rename what the first one passed over, if
  readdir's order changes (C80).
* Arguments are looked up one by one, so that `detox "top dir" "top dir/sub/p q"` renames the
  directory and then does not find the file (C102).
* -n announces a rename for each of two files that get the same clean name, also if they are two
  arguments; only the first is renamed (C28, C105). Its silence can be relied on (C105).
* Cleaning can make a name four times as long, with iso8859_1-legacy five times (C103): 64
  ampersands become a name of 256 bytes, for which most file systems have no room, so that the
  rename fails. The limit that max_length uses unless told otherwise, 256, is too large by one.
* Inline mode reads before its buffer (C32) and loses what follows a NUL on a line.
* Table files: an empty default becomes the word "default" (C43); \uXXXX is literal (C45);
  long lines are read in pieces (C53); capacity is derived from the file size (C42).
* Configuration files: NUL in a quoted string is undefined behaviour (C54); characters
  outside the language are skipped (C55); the line in an error message is wrong when a file
  was read before, whose lines are counted too, and behind a string left open, whose end of
  line is not counted (C82); paths of 256 bytes and more are skipped silently (C38).
* An unknown option ends the program with success (C47); so does a run with failed renames
  (C59).
* The generator: C61.
* Memory (C85): parse_file does not free the copy of a protected name, nor the cleaned name if
  it is the old one; parse_dir does not free the paths it works with, nor parse_inline its
  buffer, nor main the list of files. So the memory of a walk grows with the tree. Nothing is
  used after it is freed, or freed twice (C84).
* Tables in memory (C88): the text of an entry that is replaced is never freed. The statistics
  of a table (hits, misses, seeks) are ints, so the 2^31-th lookup is undefined; detox never
  resets them, and inline-detox looks up every character of its input.
* Loading a table (C90): a default text that another `default` line follows is never freed,
  like the text of a code given twice; a table file that is there but cannot be opened loses
  the whole table just allocated. The number of rows is an int: C90 is about files smaller than
  6 * 2^31 bytes.
* The configuration in memory (C91): the scanner does not look whether strdup failed. At a
  quoted string it then dereferences NULL; a sequence with an unquoted name is silently called
  "default", and an unquoted file or table name is taken as not given. The strings of the
  scanner are never freed, nor what a later definition of a sequence replaces (the source says
  "XXX - Free Old Tree"), nor the empty list of files of the file before. Nothing frees a
  configuration.
* check-table (C99): the table of a file that cannot be opened is lost, and so is the rebuilt
  one if the file cannot be opened the second time; likewise texts and defaults that others
  replace. With -b a file that was given up is used as a null pointer (C78).
* The generator (C100): no table and no escaped text is ever freed. A file that is not there or
  cannot be loaded is used as a null pointer.
* escape-utf-8 (C101): some 30 million bytes in more than a million blocks are allocated before
  the first line is read, and never freed; so is the buffer of parse_inline.
* Loading the configuration in memory (C92): the copy of the name given with -f is never freed.
  A path of 2^31 bytes or more makes snprintf fail, and the test for a path that fits would
  take its negative result for one; C92 is about shorter paths. In the built-in configuration
  five sequences have two filters in common, so that to free each of them would free those
  two more than once; nothing does.
* Loading tables in memory (C93): two filters with the same built-in table have two copies of
  it, and no table of a sequence is ever freed. A table file that exists but cannot be opened
  leaves an empty table behind (C90) for each filter that asks for it.
* The counters of a table (hits, misses, seeks) are ints that nothing reads and nothing resets
  between names: after 2^31-1 lookups that succeed, over all names of a run, the next one is
  undefined (C94_overflow). C94_names bounds the lookups by the lengths of the names.
* The file list (C89): its size is an int, which overflows when the list grows beyond 2^31-16
  files.
* check-table: with -b, a file that is given up is a null pointer dereferenced (C78); a check
  that fails ends with status 0 (C78); a code given twice with different texts fails with -b
  only, and as if it were not there (C77); the warning about lengths also comes for tables
  without entries and for defaults that are replaced; the message that a row just stored
  cannot be retrieved is never printed (C76); a null pointer is printed with %s when there
  is no default.
* escape-utf-8: the output is not always "safe to use in a C string", as the source says:
  an \x escape runs on into a following hexadecimal digit, and the C1 control characters get
  universal character names that the language rules out (C72).
