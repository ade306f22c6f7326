{"id": "C01", "title": "A table lookup returns the last value stored for that key", "statement": "Start from an empty translation table of any size (hashed or linear) and store any sequence of key/value pairs, some of which may be refused. Looking up a non-zero key afterwards returns the value of the last accepted store for that key, and nothing if no store for that key was accepted; looking up key 0 always returns nothing. Storing one key never changes the result for another key.", "quantifier": "every table size, hash mode, sequence of stores (colliding and repeated keys included) and looked-up key", "why_tests_cant": "The slot a key lands in depends on the whole history of stores and on collisions; unit tests sample a handful of histories.", "anchors": ["src/table.c: table_init, table_put, table_get, table_hash", "src/detox_struct.h: table_t"]}
{"id": "C02", "title": "Exactly when a table store is refused", "statement": "A store into a table built through the API is refused if and only if the key is 0 or the number of stores accepted so far (replacements of an existing key included) equals the table's size; a refused store changes nothing. Consequently a replacement can be refused although the table still has empty rows.", "quantifier": "every table size, every history of stores", "why_tests_cant": "Needs a counting argument over all histories; the surprising half (replacements use up capacity) only appears at the boundary.", "anchors": ["src/table.c: table_put", "src/detox_struct.h: table_t.used"]}
{"id": "C03", "title": "Resizing a table preserves its contents", "statement": "Rebuilding a table with at least as many rows as it holds distinct keys, in either hash mode, gives a table that answers every lookup as before and has the same default translation. With fewer rows, entries are silently dropped and no other entry is altered: every lookup answers either as before or nothing.", "quantifier": "every reachable table, every new size, both hash modes, every key", "why_tests_cant": "The rows are re-inserted with a different hash modulus; correctness depends on all collision patterns.", "anchors": ["src/table.c: table_resize"]}
{"id": "C04", "title": "The recorded maximum replacement length bounds every replacement", "statement": "At all times the table's recorded maximum data length is at least the length of every value a lookup can return, and directly after a rebuild it is exactly the length of the longest stored value (0 for an empty table). The default translation is not covered by it.", "quantifier": "every reachable table and key", "why_tests_cant": "The output buffers of three filters are sized from this number, so it must hold for every history.", "anchors": ["src/table.c: table_put, table_resize"]}
{"id": "C05", "title": "The safe filter replaces each character independently through its table", "statement": "For any table, the safe filter maps a name character by character: a character with an entry becomes that entry's text, one without becomes the default translation when there is one and itself otherwise. The length of the buffer aside, nothing else influences the output, so filtering a concatenation is concatenating the filtered parts.", "quantifier": "every table, every NUL-free byte string, both signednesses of char", "why_tests_cant": "Universally quantified over names and tables.", "anchors": ["src/clean_string.c: clean_safe", "src/table.c: table_get"]}
{"id": "C06", "title": "The built-in safe table removes every difficult character", "statement": "With the built-in safe table the output contains no control character, no DEL, no white space and none of the shell-special characters listed in the manual, in particular no '/'; every other byte, including every byte 0x80-0xFF, is left exactly as it was, and applying the filter twice is the same as applying it once.", "quantifier": "every NUL-free byte string", "why_tests_cant": "Holds for unboundedly many names; tests try a few.", "anchors": ["src/clean_string.c: clean_safe", "src/builtin_table.c: builtin_safe_rows, load_builtin_safe_table", "man/detox.1"]}
{"id": "C07", "title": "Table-driven byte filters stay inside their output buffer", "statement": "The iso8859_1 and safe filters never write outside the buffer they allocate when the table's longest entry has at least one character and the default translation (if any) is no longer than the longest entry; this covers all built-in tables for every name. Without that condition the write past the end is real: a table with no non-empty entry, or with a default longer than every entry, overruns the heap buffer for some name.", "quantifier": "every name, every table reachable through the table API or a table file", "why_tests_cant": "A fixed test never explores the relation between default, longest entry and name length.", "anchors": ["src/clean_string.c: clean_iso8859_1, clean_safe", "src/parse_table.c: parse_table", "src/builtin_table.c"]}
{"id": "C08", "title": "The built-in ISO-8859-1 filter transcodes to valid UTF-8", "statement": "With the built-in iso8859_1 table, 7-bit characters are unchanged, bytes 0xA1-0xFF other than 0xAD become the UTF-8 encoding of the same code point, 0xA0 becomes a space, 0xAD a dash, and 0x80-0x9F become '_'. The result is valid UTF-8 (RFC 3629) for every input.", "quantifier": "every NUL-free byte string", "why_tests_cant": "Every byte value in every context.", "anchors": ["src/clean_string.c: clean_iso8859_1", "src/builtin_table.c: builtin_iso8859_1_rows"]}
{"id": "C09", "title": "What the iso8859_1-legacy chain does to CP-1252 text", "statement": "The two-stage CP-1252 then ISO-8859-1 filter of the shipped configuration is documented to turn CP-1252 text into UTF-8. Each stage alone does its job, but chained, the second stage re-encodes the UTF-8 bytes the first one produced: a byte 0x80-0x9F comes out as its correct UTF-8 character exactly when the first stage maps it to a single 7-bit character; all other bytes of that range come out garbled, while 7-bit and 0xA0-0xFF bytes come out as documented.", "quantifier": "every byte string, stated per byte and lifted to strings", "why_tests_cant": "No test covers the chain on the range that matters.", "anchors": ["src/config_file_spoof.c: spoof_config_file", "etc/detoxrc", "src/builtin_table.c: builtin_cp1252_rows, builtin_iso8859_1_rows", "src/clean_string.c: clean_iso8859_1"]}
{"id": "C10", "title": "UTF-8 filter: decoding and resynchronisation", "statement": "The utf_8 filter consumes the name from left to right in units: a complete 1-6 byte UTF-8 sequence, a start byte with too few continuation bytes (replaced by a single '_', never swallowing the byte that broke it), or a single invalid byte (replaced by '_'). A complete sequence becomes the table entry of its code point, '_hidden_null_' for code point 0, '_' above U+10FFFF, the default if there is one, and otherwise its own bytes.", "quantifier": "every byte string and every table", "why_tests_cant": "All malformed byte patterns and truncation points; quantified over tables.", "anchors": ["src/clean_utf_8.c: clean_utf_8, get_utf_8_width, is_utf_8_cont"]}
{"id": "C11", "title": "UTF-8 filter: output buffer", "statement": "With the built-in unicode table the utf_8 filter stays within its buffer for every name that contains no over-long encoding of NUL; with one, it writes past the end exactly when the produced text is longer than the name, e.g. for the two-byte name C0 80.", "quantifier": "every byte string", "why_tests_cant": "Requires an exact accounting of bytes written against bytes allocated for every input.", "anchors": ["src/clean_utf_8.c: clean_utf_8, null_replacement", "src/builtin_table.c: builtin_unicode_rows"]}
{"id": "C12", "title": "UTF-8 filter leaves clean text alone and emits only well-formed units", "statement": "With the built-in unicode table, valid UTF-8 text with no character in the table's replacement list is returned unchanged; whatever the input, the output splits into complete sequences with no stray continuation or invalid byte, and filtering twice equals filtering once. It is not guaranteed to be strictly valid UTF-8: over-long forms and surrogates of characters absent from the table pass through.", "quantifier": "every byte string", "why_tests_cant": "Needs decoding to be inverted for every string.", "anchors": ["src/clean_utf_8.c: clean_utf_8", "src/builtin_table.c: builtin_unicode_rows"]}
{"id": "C13", "title": "CGI un-escaping inverts CGI escaping", "statement": "For any text of non-zero bytes, percent-encoding any subset of its characters that contains '%' and '+' (and writing blanks as '+' or %20), in either letter case, and then applying the uncgi filter gives back the original text. Text without '%' and '+' is unchanged, the result is never longer than the input, and an escape %00 cuts the result at that point.", "quantifier": "every NUL-free byte string and every choice of which characters to encode", "why_tests_cant": "Round trips over all strings and all partial encodings.", "anchors": ["src/clean_string.c: clean_uncgi"]}
{"id": "C14", "title": "Wipeup leaves no separator runs and no leading junk", "statement": "The result of wipeup never starts with '-', '_' or '#', contains no two adjacent separators ('-','_', and '.' when remove_trailing is on), each maximal run of separators not at the stripped start is represented by its strongest member ('.' over '-' over '_'), all other characters keep their order, and a second application changes nothing.", "quantifier": "every byte string, both settings of remove_trailing", "why_tests_cant": "Runs of any length and any mixture.", "anchors": ["src/clean_string.c: clean_wipeup"]}
{"id": "C15", "title": "max_length respects the limit and the extension", "statement": "A name no longer than the limit (256 when the limit is 0) is unchanged. A longer one becomes exactly limit bytes long, being a prefix of the name followed by its extension (the last dot suffix, or last two if the earlier dot is within five characters and not first; nothing for a dotless name or a trailing dot), unless the extension alone reaches the limit, in which case - and only then - the name is returned unchanged and over-long. Applying it twice equals applying it once.", "quantifier": "every byte string and every limit", "why_tests_cant": "Boundary interplay of limit, extension length and second-dot search over all names.", "anchors": ["src/clean_string.c: clean_max_length"]}
{"id": "C16", "title": "lower only changes A-Z", "statement": "In the C locale (and any locale whose ctype agrees on bytes >= 0x80, such as UTF-8 ones) the lower filter replaces each byte A-Z by a-z and leaves every other byte unchanged; it is idempotent and preserves length.", "quantifier": "every byte string", "why_tests_cant": "Every byte in every position.", "anchors": ["src/clean_string.c: clean_lower"]}
{"id": "C17", "title": "A sequence is the left-to-right composition of its filters", "statement": "Running a sequence on a name gives the same result as applying its filters one after the other; running the concatenation of two filter lists is running the first and then the second; a sequence never yields 'no result' for a name.", "quantifier": "every sequence of loaded filters, every name", "why_tests_cant": "Sequences are user-defined and unbounded.", "anchors": ["src/sequence.c: sequence_run_filters", "src/filter.c: filter_run"]}
{"id": "C18", "title": "The shipped sequences yield portable names; default, lower and utf_8 are idempotent", "statement": "For the default, iso8859_1, iso8859_1-legacy, utf_8, uncgi and lower shipped sequences: a run gives a result (utf_8: whenever the name contains no over-long NUL) and the result contains no control character, no blank, no '/', no shell-special character of the manual's list and no adjacent separators, and does not start with '-', '_' or '#'. For default, lower and utf_8 cleaning a cleaned name changes nothing; iso8859_1 and uncgi are not idempotent.", "quantifier": "every byte string", "why_tests_cant": "Interaction of several filters over all names.", "anchors": ["src/config_file_spoof.c: spoof_config_file", "src/clean_string.c", "src/clean_utf_8.c"]}
{"id": "C19", "title": "Which filters can introduce a slash", "statement": "If a name has no '/', then lower, wipeup, max_length, and iso8859_1 or safe or utf_8 with a table whose texts have no '/', introduce none, with two exceptions: uncgi introduces one for %2F, and utf_8 for an over-long encoding of '/' with the built-in table. Any sequence that runs the built-in safe filter after the last uncgi/utf_8 filter produces no '/'; the shipped uncgi-only and utf_8-only sequences do for some names.", "quantifier": "every sequence, every name", "why_tests_cant": "Quantified over all sequences and names.", "anchors": ["src/clean_string.c", "src/clean_utf_8.c", "src/config_file_spoof.c"]}
{"id": "C20", "title": "Dry run changes nothing", "statement": "With the dry-run option, processing any list of file arguments - recursively or not, whatever readdir returns and wherever it is interrupted - never issues a rename: the directory tree is the same after every step.", "quantifier": "every file system, option set, readdir behaviour, argument list and interruption point", "why_tests_cant": "Unbounded trees, schedules and crash points.", "anchors": ["src/file.c: parse_file, parse_dir", "src/detox.c: main"]}
{"id": "C21", "title": "No file is ever lost or overwritten", "statement": "If nobody else changes the tree during the run, then after every system call (hence at every crash point) every inode is still referenced by as many directory entries as before and its contents are untouched: a rename is only carried out towards a name that does not exist (or is the same single-linked file).", "quantifier": "every file system with hard links, symbolic links, '.', '..' and multiple devices; every sequence, argument list, readdir order and interruption point", "why_tests_cant": "Data loss depends on collisions among arbitrary names in arbitrary order.", "anchors": ["src/file.c: parse_file, parse_dir"]}
{"id": "C22", "title": "The existence check is not atomic", "statement": "If another process creates the target name between the existence check and the rename, the rename replaces that file: the no-overwrite guarantee does not extend to concurrent activity.", "quantifier": "existence of an interleaving", "why_tests_cant": "Races are not observable in a sequential test.", "anchors": ["src/file.c: parse_file"]}
{"id": "C23", "title": "Only the last path component is renamed, inside its directory", "statement": "Every rename that is issued has a source and target that agree up to and including the last '/' of the source; if the cleaned name has no '/', the file stays in its directory. If it has one - the uncgi filter produces one from %2F - the file can be moved into another directory. '.' and '..' are never renamed, nor is a path ending in '/'.", "quantifier": "every path and sequence", "why_tests_cant": "All path shapes.", "anchors": ["src/file.c: parse_file, is_protected"]}
{"id": "C24", "title": "The returned path names the file", "statement": "If the tree is well formed, nobody else changes it, cleaning introduces no '/', and the path does not lead through the very entry it names (as x/../x does), then after processing a path that exists the path returned refers to the same inode as before; it is the new name if and only if a rename succeeded. Without the last proviso the returned path can be dangling.", "quantifier": "every file system, path, sequence and rename outcome", "why_tests_cant": "Covers every failure combination of the three system calls.", "anchors": ["src/file.c: parse_file"]}
{"id": "C25", "title": "Hidden entries are skipped in directories", "statement": "While walking a directory, an entry whose name starts with '.' is never renamed and never entered.", "quantifier": "every directory content and readdir order", "why_tests_cant": "All directory contents and walks.", "anchors": ["src/file.c: ignore_file, parse_dir"]}
{"id": "C26", "title": "Ignored names and the shared cursor", "statement": "A name on the ignore list is skipped by a directory walk provided the check before it did not itself end in a match. After a match the next check starts in the middle of the list, so an ignored name that is visited directly after another ignored name can be processed although it is on the list.", "quantifier": "every ignore list and every sequence of checked names", "why_tests_cant": "The defect depends on the order of visits, i.e. on state carried between calls.", "anchors": ["src/file.c: ignore_file", "src/filelist.c: filelist_get"]}
{"id": "C27", "title": "File kinds and recursion", "statement": "Without the special option only regular files and directories are ever renamed; a directory walk never enters a symbolic link; without the recurse option no entry deeper than one level below a directory argument is touched.", "quantifier": "every file system and readdir behaviour", "why_tests_cant": "Unbounded trees.", "anchors": ["src/file.c: parse_dir", "src/detox.c: main"]}
{"id": "C28", "title": "Announced renames", "statement": "In verbose mode every rename that is carried out is announced beforehand by exactly one line 'old -> new' with the very paths passed to the system call, and in dry-run mode the same lines are produced without a rename; for a single file argument the dry run announces exactly what a real run would attempt. For a directory the dry run may announce more: two entries cleaning to the same name are both announced though a real run performs one.", "quantifier": "every path, sequence and file system", "why_tests_cant": "All outcomes of the checks.", "anchors": ["src/file.c: parse_file"]}
{"id": "C29", "title": "Cleaning a file twice renames it at most once", "statement": "With an idempotent sequence, processing the path returned by a successful rename does nothing except, at most, repeat the filters' messages about the name. With the shipped sequences default, lower and utf_8 it does nothing at all.", "quantifier": "every file system, path, idempotent sequence", "why_tests_cant": "All names.", "anchors": ["src/file.c: parse_file"]}
{"id": "C30", "title": "Inline mode filters line by line", "statement": "For any input stream without NUL bytes in which every line is shorter than the read size (at most 1006 bytes before its newline, 1007 for an unterminated last line) and the unterminated last line, if any, is not just a few continuation bytes, inline mode outputs, for every line, the filtered line, with the newline structure of the input preserved; the lines '.' and '..' come out unchanged.", "quantifier": "every such byte stream of any length, every sequence", "why_tests_cant": "Unbounded streams.", "anchors": ["src/file.c: parse_inline"]}
{"id": "C31", "title": "Inline mode never splits a UTF-8 character", "statement": "Lines longer than the read size are filtered in pieces; for any stream of valid UTF-8 lines no piece begins or ends inside a character, so for a filter that works character by character the concatenated output is that of the whole line.", "quantifier": "every stream of valid UTF-8 text, every line length", "why_tests_cant": "Every alignment of characters against the buffer boundary.", "anchors": ["src/file.c: parse_inline", "src/clean_utf_8.c: get_utf_8_width"]}
{"id": "C32", "title": "When inline mode reads outside its buffer", "statement": "Inline mode reads before its buffer exactly when a piece without newline is empty up to its first NUL or consists of fewer than six continuation bytes only; it never writes outside its 1024-byte buffer.", "quantifier": "every byte stream", "why_tests_cant": "The bad streams are a vanishing fraction of inputs.", "anchors": ["src/file.c: parse_inline"]}
{"id": "C33", "title": "A file list returns what was put in, in order", "statement": "After any number of puts, a full cycle of gets returns the items in insertion order followed by one end marker, after which the cycle starts over; growing the list loses nothing, and a put restarts the cycle.", "quantifier": "every history of puts and gets", "why_tests_cant": "Growth boundary at every multiple of the chunk size, interleavings of put and get.", "anchors": ["src/filelist.c: filelist_put, filelist_get, filelist_reset, filelist_count"]}
{"id": "C34", "title": "Later sequence definitions win, names are unique", "statement": "After reading any series of configuration files, sequence names are unique, each name carries the filters of its last definition, and the order of names is that of their first definition; ignore lists accumulate in order.", "quantifier": "every series of configuration files", "why_tests_cant": "Unbounded histories of definitions.", "anchors": ["src/config_file_yacc.y: cf_append_sequence_list, cf_append_sequence_filter, cf_append_ignore_list, parse_config_file"]}
{"id": "C35", "title": "Configuration text means what it says", "statement": "Writing any configuration (sequence names and file names of any characters except quote, newline and NUL, any filters with any options, any ignore blocks) in the documented syntax, with comments, blank lines and arbitrary letter case of keywords, and parsing it yields exactly that configuration; every text has at most one meaning.", "quantifier": "every configuration and layout", "why_tests_cant": "Round trip through lexer and parser for unboundedly many texts.", "anchors": ["src/config_file_lex.l", "src/config_file_yacc.y"]}
{"id": "C36", "title": "A syntax error stops the program", "statement": "Every text without NUL bytes either follows the grammar, and then yields exactly what it defines, or terminates the program with failure; no text makes the parser loop or return a partial result, and an error in one of several files ends the program whatever the others say.", "quantifier": "every byte string", "why_tests_cant": "All malformed texts.", "anchors": ["src/config_file_yacc.y: grammar, yyerror, parse_config_file", "src/config_file_lex.l"]}
{"id": "C37", "title": "The built-in configuration is the shipped configuration", "statement": "When no configuration file exists, the sequences, filters, options and ignore list in force are exactly those obtained by parsing the shipped etc/detoxrc.", "quantifier": "the whole configuration structure", "why_tests_cant": "The two are maintained separately by hand and no test compares them completely.", "anchors": ["src/config_file_spoof.c: spoof_config_file", "etc/detoxrc"]}
{"id": "C38", "title": "Which configuration files are read", "statement": "With an explicit configuration file only that file is read, and the program fails if it cannot be read; otherwise the first readable system-wide file, then the user's two files are read in this order on top of each other; if none exists the built-in configuration is used. Paths of 256 characters or more are skipped.", "quantifier": "every environment and set of existing files", "why_tests_cant": "All combinations of existing files and environment values.", "anchors": ["src/config_file.c: config_file_load"]}
{"id": "C39", "title": "Sequence choice", "statement": "The -s name (else the environment's) selects the sequence with exactly that name and nothing else; without a name the sequence called default is chosen, or the first one when there is none.", "quantifier": "every configuration and name", "why_tests_cant": "All configurations.", "anchors": ["src/sequence.c: sequence_choose_default", "src/parse_options.c: parse_options_getopt", "src/detox.c: main"]}
{"id": "C40", "title": "Where a filter's table comes from", "statement": "A built-in name wins over a file name; an explicit file is the only one tried; otherwise the data directories are searched in order and the built-in of the filter's own kind is the fallback. An unknown built-in or an unusable explicit file terminates the program with failure.", "quantifier": "every filter and every state of the file system", "why_tests_cant": "All combinations.", "anchors": ["src/filter.c: filter_load_table, filter_find_table, filter_load_builtin, filter_load_builtin_by_filename"]}
{"id": "C41", "title": "A table file means what it says", "statement": "A table file of documented lines (comments, blank lines, start/end blocks, default lines, entries with decimal, octal or hexadecimal codes from 1 to 2^31-1 and bare or quoted texts, lines of at most 1022 bytes) gives a table with exactly its entries (the last one for a repeated code) and its last default. Any table a file gives, documented or not, is one the table API can build.", "quantifier": "every file of documented lines whose entries fit the capacity; every locale", "why_tests_cant": "Round trip over unboundedly many tables.", "anchors": ["src/parse_table.c: parse_table"]}
{"id": "C42", "title": "Capacity of parsed tables", "statement": "A file of documented lines is rejected as a whole exactly when it has an entry for code 0 or more entries than the larger of 500 and its size divided by six. A file whose every entry line takes at least six bytes is therefore never rejected for lack of capacity, while a file of shorter lines can be, even if it repeats one code only.", "quantifier": "every table file", "why_tests_cant": "Boundary depends on file size arithmetic.", "anchors": ["src/parse_table.c: parse_table, LINE_LENGTH", "src/table.c: table_put"]}
{"id": "C43", "title": "An empty default in a table file", "statement": "A default line with an empty quoted text should mean 'no replacement text'; instead the default becomes the word that introduced the line.", "quantifier": "every table file containing such a line", "why_tests_cant": "A scanf matching failure leaves the old buffer contents, which tests never exercise.", "anchors": ["src/parse_table.c: parse_table"]}
{"id": "C44", "title": "Language blocks", "statement": "A start line with a language applies its block if and only if the language is a case-insensitive prefix of the current locale name; entries of other blocks have no effect.", "quantifier": "every table file and locale", "why_tests_cant": "All locales.", "anchors": ["src/parse_table.c: parse_table"]}
{"id": "C45", "title": "Shipped table files agree with the built-in tables", "statement": "Loading table/safe.tbl and table/unicode.tbl gives the same lookups and default as the corresponding built-in tables for every key. For iso8859_1.tbl and cp1252.tbl this fails: the file loader takes the \\uXXXX notation literally, so names are rewritten to that text instead of being transcoded.", "quantifier": "every key of every table", "why_tests_cant": "Whole-table comparison over all keys; the tests use the built-in tables only.", "anchors": ["table/safe.tbl", "table/unicode.tbl", "table/iso8859_1.tbl", "table/cp1252.tbl", "src/parse_table.c", "src/builtin_table.c"]}
{"id": "C46", "title": "Parsing a table file is memory safe", "statement": "Whatever bytes a table file contains, the scanner never writes outside its two 1024-byte line buffers and never reads an unset offset.", "quantifier": "every byte string as table file", "why_tests_cant": "All file contents.", "anchors": ["src/parse_table.c: parse_table"]}
{"id": "C47", "title": "Command-line meaning", "statement": "For every argument vector: -n, -r, -v and --special set exactly their flag, the last -f and -s win, -s overrides DETOX_SEQUENCE, the remaining arguments become the file list in order. A missing file list (outside inline and list mode) terminates with failure; an unknown option or a missing option argument terminates after the usage text with status success.", "quantifier": "every argument vector and environment", "why_tests_cant": "All orders and clusterings of options.", "anchors": ["src/parse_options.c: parse_options_getopt"]}
{"id": "C48", "title": "Inline and list modes never rename", "statement": "In inline mode and with -L, no argument vector, configuration or input makes the program issue a rename.", "quantifier": "every argument vector, configuration, file system and input", "why_tests_cant": "Whole-program property.", "anchors": ["src/detox.c: main", "src/file.c: parse_inline"]}
{"id": "C49", "title": "Generated built-in tables mean what the source table says", "statement": "The table generator's string escaping stays inside its buffer and produces the body of a C string literal that denotes the original text (\\uXXXX and \\UXXXXXXXX standing for characters) for every text without newline whose \\u and \\U are universal character names. The generated code, compiled and loaded, is a table that answers every look-up exactly as the table file says, with the same default; its rows are sorted by key and the loader's size exceeds the number of rows used.", "quantifier": "every text and every table file, in every locale", "why_tests_cant": "All texts.", "anchors": ["src/generate_builtin_table.c: escape_string, generate_loader"]}
{"id": "C50", "title": "A failing existence check is taken for absence", "statement": "The no-overwrite guarantee needs a reliable lstat: when lstat on the target name fails for a reason other than absence, the target is taken to be free and an existing file there is replaced.", "quantifier": "existence of an execution", "why_tests_cant": "The failure has to hit one particular call.", "anchors": ["src/file.c: parse_file"]}
{"id": "C51", "title": "A name that cleans to nothing is never renamed", "statement": "When the sequence reduces a name to the empty string, the directory tree stays unchanged at every point and the path returned is the path given, although a rename to the bare directory part may be announced and attempted.", "quantifier": "every well-formed file system, path, sequence and outcome", "why_tests_cant": "All paths, sequences and file systems, including symbolic links in the directory part.", "anchors": ["src/file.c: parse_file"]}
{"id": "C52", "title": "Inline mode processes every byte exactly once", "statement": "For every stream without NUL bytes, whatever its encoding and line lengths, the pieces handed to the filters are the stream itself cut at its newlines and, within lines of at least 1007 bytes, at places at least 1007 bytes apart; no byte is lost, duplicated or reordered. With a sequence without filters inline mode therefore copies its input (up to a fatal rest of stray continuation bytes).", "quantifier": "every byte stream without NUL, every sequence, both signednesses of char", "why_tests_cant": "All streams, including arbitrary invalid UTF-8 around the read boundary and the failing push-back.", "anchors": ["src/file.c: parse_inline"]}
{"id": "C53", "title": "Long lines in table files", "statement": "A comment should have no effect whatever its length; but lines are read in pieces of 1023 bytes, so that whatever follows the first 1023 bytes of a comment inside a block is taken as a line of its own, for instance as an entry.", "quantifier": "every comment of that length followed by any documented entry", "why_tests_cant": "The failure needs lines longer than the buffer, for every content of the comment and every entry behind it; sample files have short lines.", "anchors": ["src/parse_table.c:84-92"]}
{"id": "C54", "title": "Reading a configuration file stays inside the scanner's buffers", "statement": "No contents of a configuration file make the scanner read outside its buffers. This fails: whenever a quoted string contains a NUL byte, the copy made by strdup ends there and the action looks behind it (and may write there). It holds for contents without NUL bytes.", "quantifier": "every file contents; for the failure, every string with a NUL and every rest of the file", "why_tests_cant": "Memory errors of this kind are silent, and all positions of the NUL byte have to be covered.", "anchors": ["src/config_file_lex.l:45-54"]}
{"id": "C55", "title": "Stray characters in configuration files", "statement": "Text that is not in the configuration language should be rejected. This fails: a character that begins no token and no comment is silently skipped wherever tokens are expected, so that files full of punctuation are accepted.", "quantifier": "every character outside the language, before every rest of a file", "why_tests_cant": "All characters at all positions.", "anchors": ["src/config_file_lex.l", "src/config_file_yacc.y:194"]}
{"id": "C56", "title": "The list shows what is in force", "statement": "With -L the program prints every sequence of the loaded configuration once, in order, with a mark at exactly the one that the same command line without -L would use (none if there is none), with -v also origin and filters, then the names to ignore, and ends with success without touching any file.", "quantifier": "every argument vector with -L, environment and configuration", "why_tests_cant": "All configurations and ways of choosing a sequence.", "anchors": ["src/config_file_dump.c: dump_config_file", "src/detox.c:64-67"]}
{"id": "C57", "title": "Portable names out of the box", "statement": "Without configuration files and -f, and with no sequence name or one of default, iso8859_1, iso8859_1-legacy, utf_8, uncgi, every rename requested by the program replaces the last component by a portable one: no difficult characters, no two adjacent separators, no leading '-', '_' or '#'.", "quantifier": "every argument vector, environment, file system behaviour and name", "why_tests_cant": "Whole-program property over all names.", "anchors": ["src/detox.c: main", "src/config_file_spoof.c: spoof_config_file", "src/file.c: parse_file"]}
{"id": "C58", "title": "The whole program loses nothing", "statement": "Whatever the arguments, environment, configuration and initial tree, at every point of a run (also when it is cut short there) every file has as many names as before; renames are requested only from existing to free names, and with -v are announced immediately before.", "quantifier": "every argument vector, environment, configuration, tree and point of a run", "why_tests_cant": "Whole-program property over all runs.", "anchors": ["src/detox.c: main", "src/file.c"]}
{"id": "C59", "title": "Exit status", "statement": "The program reports failure when a file could not be renamed. This fails: whenever it gets to its end the status is success, also after failed renames.", "quantifier": "every run", "why_tests_cant": "All runs.", "anchors": ["src/detox.c:132"]}
{"id": "C60", "title": "The shipped built-in tables are the shipped table files", "statement": "src/builtin_table.c is, byte for byte, its template followed by what the generator and bin/generate-builtin.sh make of table/safe.tbl, iso8859_1.tbl, unicode.tbl and cp1252.tbl, in every locale; and its four parts define exactly the built-in tables the other properties speak of.", "quantifier": "every locale; all bytes of the file", "why_tests_cant": "The meaning of the C text is related to the table values through an independent definition of string literals and initialisers, for every row; no locale can change it.", "anchors": ["src/builtin_table.c", "src/generate_builtin_table.c", "bin/generate-builtin.sh", "table/*.tbl"]}
{"id": "C61", "title": "Where the generator goes wrong", "statement": "The generator does not escape the default translation, dereferences a null pointer for a table file that is given up, overflows an int for code 2147483647, writes a newline into a string literal for a quote left open, and its shell script replaces the word NEW inside texts.", "quantifier": "existence of a table file for each", "why_tests_cant": "Tests use the shipped tables, which have none of these.", "anchors": ["src/generate_builtin_table.c: generate_loader, escape_string", "bin/generate-builtin.sh"]}
{"id": "C62", "title": "The generated scanner follows its rules", "statement": "src/config_file_lex.c returns, call after call, the tokens that the rules of src/config_file_lex.l give to the file: the longest match, the first rule among these, and one byte skipped where no rule matches. This holds across buffer boundaries, growing buffers and NUL bytes.", "quantifier": "all files up to 2^30-2 bytes; all ways in which reads split the file; all buffer states", "why_tests_cant": "The automaton has 110 states with compressed tables; the buffer code runs only for files beyond 8 KB or tokens across a read.", "anchors": ["src/config_file_lex.c", "src/config_file_lex.l"]}
{"id": "C63", "title": "The generated parser follows its grammar", "statement": "src/config_file_yacc.c accepts exactly the files of the grammar in src/config_file_yacc.y and builds the configuration they define; on any other file the program exits with failure. It never indexes outside its tables, reads an unset value or outgrows its stacks.", "quantifier": "all files without NUL bytes up to 2^30-2 bytes; for files with NUL, equality with the model of the other properties", "why_tests_cant": "The tables are packed and shared between states; a wrong entry shows for particular token sequences only.", "anchors": ["src/config_file_yacc.c", "src/config_file_yacc.y"]}
{"id": "C64", "title": "How configuration files are read does not matter", "statement": "The configuration that a series of files defines does not depend on how reads split the files, on the buffer size at the start, nor on what the scanner and parser globals held after earlier files.", "quantifier": "all series of files; all splits; all leftover states", "why_tests_cant": "Splits depend on the kind of file and on the C library.", "anchors": ["src/config_file_lex.c: yy_get_next_buffer", "src/config_file_yacc.y: parse_config_file"]}
{"id": "C65", "title": "What a complete run consists of", "statement": "A run that works on files to its end consists, argument by argument and entry by entry, of exactly the system calls and messages of a written-down grammar: the messages of the filters, the look at the file, the refusal, the announcement, the rename and its failure, the directory read entry by entry, skipped names, and nothing else in between; and every sequence of calls and answers of that grammar is a run. The bound that the model puts on nesting does not matter.", "quantifier": "all options, argument lists, ignore lists, all answers of the system, unbounded nesting and directory sizes", "why_tests_cant": "Tests look at the result in a handful of trees; an extra call, a missing check after a rare answer or a swallowed message does not show.", "anchors": ["src/file.c: parse_file, parse_dir", "src/detox.c: main"]}
{"id": "C66", "title": "Directory handles", "statement": "readdir and closedir are called only with the directory that was opened last and is not closed yet, and a run that returns has closed every directory it opened, once.", "quantifier": "all command lines, files, configurations and answers of the system", "why_tests_cant": "Leaks and uses after close need deep or failing walks, and do not show in the result.", "anchors": ["src/file.c: parse_dir"]}
{"id": "C67", "title": "What is asked and said", "statement": "While working on files the program issues only lstat, opendir, readdir, closedir, permitted renames and messages of known form; without -v and -n nothing goes to standard output except one line for every unterminated string in the configuration.", "quantifier": "all command lines, files, configurations and answers of the system", "why_tests_cant": "Absence of output and of calls has to hold in every situation.", "anchors": ["src/file.c", "src/detox.c: main"]}
{"id": "C68", "title": "Nothing is left out", "statement": "In a run that returns, every name that readdir returned and that is neither hidden nor on the ignore list has been looked at, and, if its kind is to be worked on, it has been cleaned and, being a directory in recursive mode, entered, before the next name is read.", "quantifier": "all command lines, configurations, trees and answers of the system", "why_tests_cant": "An entry skipped after a particular history (such as after an ignored or failing one) needs that history.", "anchors": ["src/file.c: parse_dir", "src/file.c: ignore_file"]}
{"id": "C69", "title": "What ends the work early", "statement": "Once work on files has begun, the program ends before all arguments are done only if opendir reports too many open files, or if cleaning some name it met ends it. With the built-in configuration and its sequences the latter does not happen: every other error is reported and the work goes on.", "quantifier": "all command lines with short arguments, all names and answers of the system, other processes active (utf_8: names without over-long forms of NUL; lower: C locale)", "why_tests_cant": "It is about all failures at all points of a run.", "anchors": ["src/file.c: parse_file, parse_dir", "src/sequence.c: sequence_run_filters"]}
{"id": "C70", "title": "escape-utf-8 writes one escape per character", "statement": "For input that is UTF-8 text without NUL, escape-utf-8 writes, line by line and however long the lines are, for every character its one escape: printable ASCII as it is except for the characters that have a simple escape sequence, \\x and two lower-case digits for the other control characters, \\u and four or \\U and eight upper-case digits for everything from U+0080 on. Exit status 0.", "quantifier": "all texts (any number and length of lines, last line terminated or not), all platforms", "why_tests_cant": "1.1 million characters, in lines of any length that are processed in pieces.", "anchors": ["src/escape_utf_8.c: generate_c_escape_table, main", "src/file.c: parse_inline"]}
{"id": "C71", "title": "escape-utf-8 on any bytes", "statement": "Whatever bytes are on standard input, text or not, escape-utf-8 writes only printable ASCII characters and newlines to standard output, does nothing but read and print, and returns 0 or reads in front of its buffer as described in C32. Different texts are written differently.", "quantifier": "all contents of standard input, all partial runs", "why_tests_cant": "All byte strings are quantified over, invalid UTF-8 and NUL included.", "anchors": ["src/escape_utf_8.c", "src/clean_utf_8.c", "src/file.c: parse_inline"]}
{"id": "C72", "title": "When the output is safe in a C string", "statement": "The output for a text, put between quotation marks, is a C string literal denoting that text exactly when the text has no C1 control character and no control character written with \\x stands before a hexadecimal digit. (The comment in the source claims it always is; refuted.)", "quantifier": "all texts", "why_tests_cant": "An equivalence over all texts against the grammar of C11 literals with its longest match.", "anchors": ["src/escape_utf_8.c:128-133", "src/escape_utf_8.c: generate_c_escape_table"]}
{"id": "C73", "title": "The embedded escape table", "statement": "The table compiled into escape-utf-8 is the one that the generator makes of table/c_escape.tbl, and loading that file at run time gives a table with the same contents, in every locale.", "quantifier": "all code points, all locales", "why_tests_cant": "Agreement on all keys, present or not.", "anchors": ["src/escape_utf_8.c:26-81", "table/c_escape.tbl", "src/generate_builtin_table.c", "src/parse_table.c"]}
{"id": "C74", "title": "What a run in inline mode consists of", "statement": "A run in inline mode consists, argument by argument, of exactly the calls and messages of a written-down grammar: a file that is missing, is a directory or cannot be opened gets one line on standard error and nothing on standard output, and the next one follows; any other stream, whatever its bytes (NUL included), is cut into pieces in exactly one way, each piece printed as cleaned, after the messages of the filters about it, with a warning exactly when the byte 0xFF could not be pushed back; the grammar also says when and how a run ends abnormally. With the built-in configuration and its sequences only a stream with a NUL or invalid UTF-8 can end it abnormally; otherwise it ends with success.", "quantifier": "all command lines in inline mode, configurations, streams, answers of the system, both signednesses of char", "why_tests_cant": "All streams of bytes at all alignments with the buffer, all failures in all places.", "anchors": ["src/file.c: parse_inline", "src/detox.c: main"]}
{"id": "C75", "title": "Every file means one thing as a table file", "statement": "Whatever bytes a file consists of, it is read in one sequence of pieces (lines, cut at 1023 bytes, counted up to the first NUL), each of which has exactly one meaning by a written-down rule: signs, numbers too large for an int, \"0x\" without digits, quotes that are not closed, junk behind a key word included. For documented lines it is the documented one. Loading the file gives a table with exactly the last entry for each code and the last default, unless there is an entry for code 0 or more entries than the larger of 500 and a sixth of the size, and then nothing.", "quantifier": "every byte string as table file, every locale", "why_tests_cant": "All contents of files, including those no one would write.", "anchors": ["src/parse_table.c: parse_table"]}
{"id": "C76", "title": "What check-table reports", "statement": "What check-table prints, on which stream and in which order, and the status it ends with, is exactly what a written-down description says of the command line and of the file as found the first and the second time: the option letters and the file among the arguments; one warning for each code below or equal to the one before it in its block; a note for each language block, which is skipped; a complaint that ends the check at the first entry that cannot be stored; the warning about lengths; the rows with -d (the empty ones with -v), each entry in the row of its hash value or the first free one; the ten figures, among them how many lookups had to search. The description admits one outcome for each input.", "quantifier": "all command lines, all contents of the file both times, files that are missing or cannot be opened", "why_tests_cant": "All contents and all collisions of hash values.", "anchors": ["src/check_table.c", "src/table_dump.c", "src/table.c"]}
{"id": "C77", "title": "What check-table's verdict is worth", "statement": "A file that check-table reads through is loaded by detox, with exactly the entries and the default that were reported, and one that it gives up is not loaded (language blocks apart, which check-table always skips). If it does not warn about lengths, the loaded table is one with which no filter writes past its buffer for the sake of the default. With -b, a file that does not change meanwhile is complained about exactly when some code has two different texts; otherwise every entry is looked up once and found.", "quantifier": "all contents of table files, all locales", "why_tests_cant": "Agreement of two readers on all byte strings.", "anchors": ["src/check_table.c", "src/parse_table.c", "src/table.c"]}
{"id": "C78", "title": "How check-table ends", "statement": "The check of a file that is not accepted should end in order, with a status that says so. It does not: with -b, a file that cannot be opened or is given up makes the program dereference a null pointer, unless the file has vanished by then; this is the only undefined behaviour, and in all other cases in which a file is named and the options are valid the status is 0, whatever was found.", "quantifier": "all options, all states of the file at both times", "why_tests_cant": "All reasons for giving up, all changes of the file between both passes.", "anchors": ["src/check_table.c: main, check_table_again"]}
{"id": "C79", "title": "A run leaves the directory in order", "statement": "After a run on a directory in which no path is too long and no rename or opendir fails, every entry of every directory that the walk enters is hidden or listed, or neither file nor directory (without --special), or carries the name that its cleaning yields, or that name is empty or in use (by another file, or by the file itself if it has several links). With the shipped sequences default, lower and utf_8 this means that each file and directory has a portable name unless it is hidden, listed or its portable name is taken.", "quantifier": "all trees, all orders in which readdir returns the entries (entries that appear meanwhile may or may not be returned), all options and lists, all sequences for which cleaning twice is cleaning once", "why_tests_cant": "All trees and all readdir orders, including renamed entries that come up again.", "anchors": ["src/file.c: parse_file, parse_dir, ignore_file", "src/detox.c: main"]}
{"id": "C80", "title": "A second run has nothing to do", "statement": "A tree that is in order is left exactly as it is by any further complete run, whatever readdir's order, the list of ignored names and the calls that fail. So a second run on the directory (under its new name, if it was renamed) renames nothing, provided that the first one did not pass over entries because of the list. With such entries it is not so: the shared cursor of the list makes a second run rename an entry that the first run passed over, if readdir's order is different.", "quantifier": "all trees, all pairs of readdir orders, all options and lists", "why_tests_cant": "A relation between two runs over all trees and orders.", "anchors": ["src/file.c: parse_file, parse_dir, ignore_file", "src/filelist.c"]}
{"id": "C81", "title": "What the filters complain about", "statement": "Cleaning a name prints exactly the messages the name deserves, one line each on standard error, in order: from utf_8 one per byte that starts no character, per character cut short (by another byte, or by the end), per code point 0 or above 0x10FFFF that the table does not translate, the latter with the code point in eight hexadecimal digits; from max_length one, naming limit and name, when the extension alone reaches the limit; nothing from the other filters. If a filter has no table or is of no known kind, it says so after the messages of the filters before it and the program ends with failure. Processing a file begins with these messages, and in inline mode they come before the cleaned line. The shipped sequences other than utf_8 and utf_8-only never complain, utf_8 not about valid UTF-8 and not about names it has made itself.", "quantifier": "all names, tables, sequences, options, both signednesses of char", "why_tests_cant": "Absence of messages for all valid names, and the exact messages for every malformed one.", "anchors": ["src/clean_utf_8.c: clean_utf_8", "src/clean_string.c: clean_max_length", "src/filter.c: filter_run", "src/sequence.c: sequence_run_filters"]}
{"id": "C82", "title": "What the program says before it sets to work", "statement": "Everything printed between the start of the program and its first look at a file is determined by the command line, the environment, the configuration files and the table files: the complaint of getopt_long about the first defect (unknown letter, missing value, unknown, ambiguous or overfull long option), then the usage text, and exit status 0; help, version or usage on request; a named configuration file that is not there; for a file that is no configuration, the file, the line and the first token that cannot stand where it stands (nothing at the end of the file), after the messages about strings left open, with exit status 1; the list of sequences; no sequence to work with; a table that is not built in, cannot be opened, or has a row that is refused, in the order of the filters. Every start is of exactly one of these kinds or sets to work, and if it gives up nothing else happens. The line named is that of the token in the file named with -f, unless a string was left open. (Refuted: that it is so in general: lines of files read earlier are counted, the end of an open string is not.)", "quantifier": "all argument vectors, environments, configuration files (any bytes), table files, both signednesses of char, every run", "why_tests_cant": "Exactness and completeness: no start prints anything else, for all files and command lines, including all malformed ones.", "anchors": ["src/parse_options.c: parse_options_getopt", "src/config_file.c: config_file_load", "src/config_file_yacc.y: yyerror", "src/config_file_lex.l", "src/parse_table.c: parse_table", "src/filter.c: filter_load_table", "src/detox.c: main"]}
{"id": "C83", "title": "The filters in memory", "statement": "Run on a name in memory, every filter and every sequence does what the description on lists says (C05-C19, C81): the same messages, and the same name in a block of its own, with the name it was given and all else in memory as before, and every other block it took freed. If malloc fails on the way, exactly the messages up to then are printed, then that there is no memory, and the program ends with failure. What goes wrong on lists (a table that overflows the buffer, a filter without a table) goes wrong in memory the same way, and nothing else does: no read outside a block or of a byte never written, no write outside, no use after free, no double free, no loop without end.", "quantifier": "all names, tables, sequences, contents of memory, and all points at which memory runs out, both signednesses of char", "why_tests_cant": "Freedom from memory errors for all names and every failure of malloc; sanitizers see single runs.", "anchors": ["src/clean_string.c", "src/clean_utf_8.c", "src/filter.c: filter_run", "src/sequence.c: sequence_run_filters", "src/wrapped.c: wrapped_malloc, wrapped_strdup"]}
{"id": "C84", "title": "The whole program in memory", "statement": "Every run of the program, with its names in memory and its configuration read by the generated scanner and parser, is a run of the program as described on lists, call by call and print by print, until it ends or memory runs out; and every run on lists is possible in memory, unless memory runs out, in which case the program says so and ends with failure, having done a prefix of the run. So all theorems on runs (C20-C32, C65-C69, C74, C79-C82) hold of the program in memory. The only undefined behaviour in any run is a NUL in a quoted string of the configuration (before the work begins), a table that overflows a filter's buffer, and the read before the buffer in inline mode: freed memory is never used or freed again, nothing is read before it is written, no null pointer is followed.", "quantifier": "all argument vectors, environments, configurations (files of up to 2^30-2 bytes), ways in which they are delivered, files, answers of the system, interference by others, and all points at which memory runs out", "why_tests_cant": "Absence of memory errors in all runs on all trees, whatever the system answers.", "anchors": ["src/detox.c: main", "src/file.c: parse_file, parse_dir, parse_special, parse_inline", "src/wrapped.c"]}
{"id": "C85", "title": "What is not freed", "statement": "parse_file returns a name in memory of its own; it loses one block if the name is protected or already clean, none otherwise. parse_dir loses a block for every directory opened, and at most one more for every lstat; parse_inline loses its buffer and at most one block for every line \".\" or \"..\". When the program is over, what is left is the names of the files, a block for every directory opened or stream read, and at most two more per lstat (one per line \".\" or \"..\"). (Refuted: that everything is given back.)", "quantifier": "all argument vectors, options, trees, answers of the system", "why_tests_cant": "Exact accounting of memory in all runs; the leaks do not show in what the program does.", "anchors": ["src/file.c: parse_file, parse_dir, parse_inline", "src/detox.c: main", "src/filelist.c"]}
{"id": "C86", "title": "The messages of the generated parser", "statement": "However the bytes of the configuration files arrive, the scanner and the parser that flex and bison generated say exactly what C82 demands about the files, in order: nothing about what is right, \"Unterminated character string\" for each string left open, and for the first token that cannot stand where it stands (or the end of a file where it may not end) the file, the line counted so far and the token, after which the program ends with failure; and they give the same configuration as the description by rules and grammar. If a file named on the command line is complained about and no string was left open, the line is that of the token.", "quantifier": "all configuration files of up to 2^30-2 bytes each, all ways in which read delivers them, all starting values of yylval", "why_tests_cant": "The parse tables are checked on every token sequence and every split of the input into reads.", "anchors": ["src/config_file_lex.c: yylex", "src/config_file_yacc.c: yyparse, yyerror, parse_config_file", "src/config_file.c: config_file_load"]}
{"id": "C87", "title": "Chained tables", "statement": "If two filters with tables stand one behind the other and the first table has no default, then a character without an entry in the first is translated by the second exactly as if it stood there alone, and the text of an entry of the first goes through the second. If the second leaves these texts alone, the two are one filter whose table has the entries of both, the first one's counting first, and the default of the second. With a default in the first table, no character that it looks up gets to the second. For utf_8 the same holds character by character.", "quantifier": "all names, tables (built by any puts), kinds of filters (safe, iso8859_1, utf_8), signedness of char", "why_tests_cant": "It is an equation between programs for all tables and all names; tests show single tables.", "anchors": ["src/filter.c: filter_run, src/sequence.c: sequence_run_filters", "src/clean_string.c, src/clean_utf_8.c", "man/detox.tbl.5, man/detoxrc.5"]}
{"id": "C88", "title": "Tables in memory", "statement": "A table lives in two blocks and one for each text. Looking up and storing on it are always defined, change nothing but the table, and answer what the table as a map answers (C01-C04); the texts are copies. From table_init to table_free, with any stores, lookups, resets and rebuilding in another size between, every step is defined as long as memory and int last; memory running out ends the program with its message, and rebuilding takes no more than 64 bytes, 16 for each row and those of the texts with their terminators. Afterwards what was in memory before is as it was, and of the table as many blocks are left as texts were replaced, that is, as accepted stores used a key again: table_free does not give back everything. Built-in tables are never freed. The 2^31-th lookup of a key in a table is undefined behaviour.", "quantifier": "all memories, allocators, table sizes, histories of calls, texts", "why_tests_cant": "Ownership and leaks are about every history of calls; the overflow needs 2^31 lookups.", "anchors": ["src/table.c: table_init, table_resize, table_free, table_get, table_put, table_reset, table_hash"]}
{"id": "C89", "title": "The list of files in memory", "statement": "The list of files lives in two blocks and one for each name. Adding copies the name, moves to an array larger by 16 when the array is full and frees the former one, and starts reading anew; reading gives the names in the order they were added, then NULL, then starts again; nothing else in memory changes. From filelist_init to filelist_free every step is defined, and no memory is left in use. Without a list there is nothing to read, count or free, and adding ends the program with a message and failure. A full list of more than 2^31-17 files cannot grow: the sum of ints overflows.", "quantifier": "all memories, allocators, names, histories of up to 2^31-16 calls", "why_tests_cant": "Use after free and leaks are about every history of calls and every place where memory can run out.", "anchors": ["src/filelist.c: filelist_init, filelist_put, filelist_get, filelist_reset, filelist_count, filelist_free"]}
{"id": "C90", "title": "Loading a table into memory", "statement": "parse_table prints the same and loads the same table as its description on lists (C55), into blocks of its own, and gives back both buffers; nothing that was in memory before changes and every step is defined, whatever the file contains. What stays in use is the table and the texts that were replaced: one for each entry with a code the file had before, and one for each default text that another default follows. If a row cannot be stored the table is freed as well; if the file cannot be opened the table stays. Memory suffices if there are 2112 bytes, 16 for each row and those of the texts with their terminators. Freeing the loaded table gives back all but the replaced texts.", "quantifier": "all files with fewer than 2^31-1 rows, all locales, memories and allocators", "why_tests_cant": "Buffer overruns, leaks and uses after free depend on the bytes of the file, and memory can run out at every allocation.", "anchors": ["src/parse_table.c: parse_table", "src/table.c: table_free"]}
{"id": "C91", "title": "The configuration in memory", "statement": "parse_config_file prints the same, ends the same way and reads the same configuration as its description on lists, into sequences, filters, names and a list of files that are linked in memory and own their blocks; memory outside the configuration stays as it is, whatever the file contains. For a file that is accepted, memory holds the definitions in force, those of earlier files included, and exactly this is lost: every name and quoted string of the text, the filters and the file name of each definition that is replaced, and the list of files of the earlier result if it was empty. The only other outcomes are that malloc refuses a request, which is reported and ends the program with failure, and that strdup refuses the scanner's copy of a piece of the text, which goes unnoticed: then a quoted string is undefined behaviour, and a sequence with an unquoted name is called default.", "quantifier": "all files, earlier configurations, memories and allocators, below 2^31 files to ignore and 2^32 bytes", "why_tests_cant": "Links between structures, leaks and uses of unset pointers depend on the text of every file read before, and memory can run out at every token.", "anchors": ["src/config_file_yacc.y: parse_config_file, cf_append_sequence_list, cf_append_filter, cf_append_ignore_entry", "src/config_file_lex.l", "src/config_file.c: config_file_init", "src/filter.c: filter_init", "src/sequence.c: sequence_init"]}
{"id": "C92", "title": "Loading the configuration in memory", "statement": "config_file_load prints the same, ends the same way and returns the same configuration as its description on lists: the definitions of the files of the system and the user in force, or those of the named file, or the built-in configuration. The result is linked structures in memory that own their blocks, where sequences of the built-in configuration have filters in common; memory that was there before stays as it is, the string literals included, and the buffer for the paths is freed. Without any file nothing is lost; with a named file exactly the copy of its name, the strings of the scanner and what the file itself replaces are lost. The only other outcomes are that malloc refuses a request, which is reported and ends the program with failure, and that strdup refuses the scanner's copy of a piece of a file that is there. An amount of memory is given with which neither happens.", "quantifier": "all environments, files, memories and allocators, below 2^31 bytes of files and per path", "why_tests_cant": "Which files exist and what they contain is arbitrary, memory can run out at every allocation, and a test cannot see that no other memory is touched.", "anchors": ["src/config_file.c: config_file_load, config_file_init", "src/config_file_spoof.c: spoof_config_file, generate_sequence, generate_filter, generate_builtin_filter, generate_wipeup_filter", "src/config_file_yacc.y: parse_config_file"]}
{"id": "C93", "title": "Choosing a sequence and loading its tables in memory", "statement": "sequence_choose_default follows the addresses from sequence to sequence to the one its description on lists finds: the one with the name asked for, or \"default\" or else the first one if none was asked for; it changes nothing. sequence_review prints the same, ends the same way and gives every filter the same table as its description on lists: the built-in table that is named, the file that is named, the first file that is found in the directories for data, or the built-in table of its kind. Each filter's table is in new memory of its own, even if two filters use the same built-in table, and nothing was looked up in it; of the memory that was there nothing but the members for the tables changes, so neither the static tables nor the string literals do. The buffer for paths holds the paths that are opened and is never exceeded. Together with config_file_load: from the options to the sequence, in memory that was there before nothing changes, the sequence, its tables and the list of files to ignore are in new memory and have nothing in common. The only other outcomes are refusals of malloc, which are reported and end the program, and those of strdup in the scanner.", "quantifier": "all environments, table files below 2^31 rows, configurations, memories and allocators that do not hand out 2^63 bytes", "why_tests_cant": "Which files exist and what they contain is arbitrary, memory can run out at every allocation, and a test cannot see that no other memory is touched.", "anchors": ["src/sequence.c: sequence_choose_default, sequence_review", "src/filter.c: filter_load_table, filter_find_table, filter_load_builtin, filter_load_builtin_by_filename", "src/builtin_table.c: load_builtin_safe_table, load_builtin_iso8859_1_table, load_builtin_unicode_table, load_builtin_cp1252_table", "src/detox.c: main"]}
{"id": "C94", "title": "Running a sequence of linked filters in memory", "statement": "sequence_run_filters follows the filters from address to address, reads kind, options and table from their members and looks bytes up in the tables in memory. It prints the same, ends the same way and returns the same name as its description on lists, in new memory; the names between the filters are freed and nothing else that was in memory changes except for the counters in the tables, which grow by no more than the length of the longest name on the way. So the sequence is ready for the next name: many names one after the other give what each gives alone, and what was returned earlier stays. NULL for a sequence or a filter is an internal error, NULL for a name is returned; a filter of no known kind is reported with its number and ends the program. Together with config_file_load, sequence_choose_default and sequence_review: from the options to a clean name in one memory, all that was there before is unchanged. The only other outcomes are refusals of malloc, reported when memory is what was there before and what was allocated since, and those of strdup in the scanner.", "quantifier": "all memories with a reviewed sequence, filters of known kinds, names, allocators that do not hand out 2^63 bytes, with no more than 2^31-1 lookups", "why_tests_cant": "Sequences, tables and names are arbitrary, memory can run out at every allocation, and a test cannot see that no other memory is touched.", "anchors": ["src/sequence.c: sequence_run_filters", "src/filter.c: filter_run", "src/clean_utf_8.c: clean_utf_8", "src/clean_string.c: clean_safe, clean_iso8859_1", "src/table.c: table_get"]}
{"id": "C95", "title": "Files, directories and streams with lists and sequence in memory", "statement": "The work loop of main, parse_file, parse_dir, ignore_file and parse_inline reach the sequence with its tables, the list of files to ignore and the list of file arguments by the addresses in the options. Whatever the operating system answers and other processes do in between, they make the same calls with the same arguments in the same order as their description on lists and end the same way, and whatever the description can do they do. The only other outcome is a refused request for memory, reported as the last call before the program ends with a failure. When the work is done all that was in memory before is where it was; the sequence has changed in the counters of its tables only, and both lists have the same files, the one with the arguments at its beginning; what was not freed is a block per opened directory and at most two per lstat, or a block per stream and at most one per line \".\" or \"..\". This holds while the bytes of the names looked at, counted once for each filter's longest name, are less than 2^31, since the counters of the tables are ints.", "quantifier": "all memories with a reviewed sequence and two lists, all options, file systems with interference, allocators that do not hand out 2^63 bytes, executions", "why_tests_cant": "Sequences, lists, names, directory contents and answers are arbitrary, memory can run out at every allocation, and a test cannot see that no other memory is touched.", "anchors": ["src/detox.c: main", "src/file.c: parse_file, parse_dir, ignore_file, parse_inline", "src/filelist.c: filelist_get", "src/sequence.c: sequence_run_filters"]}
{"id": "C96", "title": "The options in memory", "statement": "parse_options_getopt allocates options_t, sets its members as getopt_long returns the options, with copies of the arguments of -f and -s, and puts the remaining arguments into a new list, also when that list has to grow. It prints the same and ends the same way as its description on strings, and every member of the options, the two names and the list, which is at its beginning, are what the description gives; nothing else in memory changes. The only other outcome is a refused request for memory, reported and with a failure, and that cannot happen with a stated amount of memory, which depends on the length of the command line only.", "quantifier": "all memories with a command line of less than 2^31-32 bytes, environments, allocators", "why_tests_cant": "The command line is arbitrary, memory can run out at every allocation, and a test cannot see that no other memory is touched.", "anchors": ["src/parse_options.c: options_init, parse_options_getopt", "src/filelist.c: filelist_put"]}
{"id": "C97", "title": "Listing the sequences in memory", "statement": "With -L, main stores the address of the sequence it would use and of the files to ignore in the options, and dump_config_file follows the addresses in the configuration: the text is that of its description on lists, with every sequence, with -v also its source, filters, tables and lengths, and the files to ignore. Nothing in memory changes but those two members of the options, and the position in the list of files to ignore, which is at the beginning again. A configuration that was loaded never makes it print a NULL string. The line marked is that of the sequence detox would use without -L, no other line is marked, and none is if there is no such sequence.", "quantifier": "all memories with a configuration of less than 2^31 sequences of known filters and options, all configurations that can be loaded, all names", "why_tests_cant": "Configurations are arbitrary and a test cannot see that no other memory is read or written.", "anchors": ["src/config_file_dump.c: dump_config_file", "src/detox.c: main", "src/sequence.c: sequence_choose_default"]}
{"id": "C98", "title": "The whole program in one memory", "statement": "Started in a memory with the command line, the value of DETOX_SEQUENCE, the string literals and the built-in tables, main builds the options, the configuration, the sequence with its tables and the lists of files there and reaches all of them by address to the end. Whatever the files contain, the operating system answers and other processes do in between, it makes the same calls with the same arguments in the same order as the program on lists and ends the same way, and whatever the program on lists can do it does. The only other outcome is a refused request for memory, reported as the last call before the program ends with a failure; while the command line and the configuration are read this cannot happen with a stated amount of memory. When main returns all that was in memory at first is where it was. Undefined behaviour is of three kinds only: reading past the end of a configuration file in a string that is left open, writing past the end of a filter's buffer, and with inline mode reading before the start of the line; no freed, unwritten or NULL memory is used and no int overflows. This holds for command lines and files that are not too long, while the bytes of the names looked at are less than 2^31 for each filter, and if no copy of a part of a configuration file is refused.", "quantifier": "all command lines, environments, file contents, file systems with interference, allocators that do not hand out 2^63 bytes, starting memories, executions", "why_tests_cant": "Command lines, configurations, tables, names and answers are arbitrary, memory can run out at every allocation, and a test cannot see that no other memory is read or written.", "anchors": ["src/detox.c: main", "src/parse_options.c: parse_options_getopt", "src/config_file.c: config_file_load", "src/sequence.c: sequence_review", "src/file.c: parse_file, parse_dir", "src/wrapped.c"]}
{"id": "C99", "title": "check-table in memory", "statement": "check-table, with its line buffers, the table it fills, the table it rebuilds with -b and the texts in them in memory, prints what the program on lists (C76) prints and ends the same way, whatever the file contains, with whatever options; the only other outcome is that a request for memory is refused, which is reported after a part of that output and ends the program with a failure. That cannot happen with a stated amount of memory, the bytes of C90 and, with -b, 64, 16 for each row of the rebuilt table and the texts once more. Undefined behaviour is the null pointer of C78 and no other: no freed or unwritten memory is used, nothing is written outside of a block, no int overflows. At the end all that was in memory before is unchanged, and exactly these blocks are still allocated: both blocks of the table of a file that could not be opened, each text replaced by a later one, each default translation replaced, and the rebuilt table with its texts if the file could not be opened the second time; so not all is freed (C99_all_is_freed_refuted). Files are shorter than 2^31-1 bytes.", "quantifier": "all command lines, file contents both times the file is opened, allocators (with -b: that do not hand out 2^63 bytes), starting memories", "why_tests_cant": "The contents are arbitrary and may differ between the two readings, memory can run out at every allocation, and a test cannot see that no other memory is read or written.", "anchors": ["src/check_table.c: check_table, check_table_again, main", "src/table_dump.c: table_dump, table_stats", "src/table.c", "src/wrapped.c"]}
{"id": "C100", "title": "The generator of built-in tables in memory", "statement": "The generator, with the table it loads, the table it rebuilds and every escaped text in memory, prints what the program on lists prints, piece by piece and on standard output, together the text of C49 and C60, and ends with the same status; the only other outcome is that a request for memory is refused, which is reported after a part of that output and ends the program with a failure. That cannot happen with a stated amount of memory: the bytes of C90 to load the file and, as far as it is more than the 2048 bytes of its buffers, 64, 16 for each code up to the largest and three times the texts. Undefined behaviour is the null pointer when no table was loaded (file absent, not to be opened, or given up) and the overflow for the code 2147483647, and no other: no freed or unwritten memory is used, nothing is written outside of a block. At the end all that was in memory before is unchanged, and exactly these blocks are still allocated: both tables with their texts, each text and default translation replaced by a later one, and one escaped text for each code; so not all is freed (C100_all_is_freed_refuted). Files are shorter than 2^31-1 bytes.", "quantifier": "all arguments, file contents, locales, starting memories, allocators that do not hand out 2^63 bytes", "why_tests_cant": "The contents are arbitrary, memory can run out at every allocation, and a test cannot see that no other memory is read or written.", "anchors": ["src/generate_builtin_table.c: escape_string, generate_loader, main", "src/table.c: table_resize", "src/parse_table.c: parse_table", "src/wrapped.c"]}
{"id": "C101", "title": "escape-utf-8 in memory", "statement": "escape-utf-8, with its table, sequence, filter, options and buffers in memory, does what the program on lists does, call by call and as far, and every run on lists is one in memory; the only other outcome is that a request for memory is refused, which is reported and ends the program with a failure. Building the table and the sequence asks for no more than a stated amount (some 30 million bytes); what is asked for later is more than what was in use when main began. The table that is built is the one of C70 at the address returned, each block of it new, its buffer freed, all else in memory unchanged, and the blocks still allocated are those of the table and one for each text that was overwritten. When main returns the table and the sequence are still there, unchanged but for the counters of lookups, which are at most 95 plus one for each byte looked up. For any input, all that is written to standard output is printable ASCII and newlines, and of all undefined behaviour only the access in front of the buffer (C32) is reached: no freed or unwritten memory is used, nothing is written outside of a block. Not covered: inputs so long that an int cannot count the lookups.", "quantifier": "all inputs and ways to read them, platforms, allocators that do not hand out 2^63 bytes, starting memories with the literals and the static table, behaviours of the environment", "why_tests_cant": "The input is arbitrary, memory can run out at each of more than a million allocations, and a test cannot see that no other memory is read or written.", "anchors": ["src/escape_utf_8.c: builtin_c_escape_table, generate_c_escape_table, main", "src/table.c: table_resize, table_put, table_get", "src/file.c: parse_inline", "src/clean_utf_8.c"]}
{"id": "C102", "title": "Several arguments", "statement": "Given several files and directories in any order, distinct, and none of them in another one or on the path to another one: after a run that no failing call hinders there is nothing left to do for any of them. Each is found under its path or the one it was renamed to; it would not be renamed again; and if it is a directory everything is in order that is entered. What is done for a later argument spoils nothing for an earlier one. A second run on all or some of them under their new names, in any order, renames nothing, provided that the first one did not pass over listed names; more generally, whatever the arguments are, if there is nothing to do for any of them, nothing is done. For nested arguments it is not so: when a directory is renamed, a later argument in it is not found and its file keeps its name.", "quantifier": "all trees, numbers and orders of arguments, readdir orders, options and lists", "why_tests_cant": "A relation between the whole tree before and after for any number of arguments, each of which could undo what was done for another one.", "anchors": ["src/detox.c: main", "src/file.c: parse_file, parse_dir", "src/filelist.c"]}
{"id": "C103", "title": "How long cleaned names can be", "statement": "A filter makes a name at most as many times as long as its longest replacement text (13 at least for utf_8, for an over-long NUL); filters without a table make no name longer; a sequence at most the product. The shipped sequences make a name at most 4 times as long (iso8859_1-legacy 5, iso8859_1-only 2, cp1252-only 3, utf_8-only, uncgi-only and lower-only 1), and for each length there is a name for which this is attained. So a rename that is requested has a last component at most that long; a name of up to 63 bytes stays within 255 bytes with all but the legacy sequence, and one of 64 bytes may not.", "quantifier": "all names, tables, sequences and lengths", "why_tests_cant": "A bound over all names for each sequence, and separators merge across the replacements of neighbouring characters.", "anchors": ["src/clean_string.c", "src/clean_utf_8.c", "src/sequence.c", "etc/detoxrc", "table/safe.tbl"]}
{"id": "C104", "title": "From the command line to a tidy tree", "statement": "Without configuration files, detox called with files and directories none of which is in another one or on the path to another one, with any options that make it rename files (not -n, -f, --inline), with the sequence default, lower or utf_8: if it returns from main and no call failed that hinders it, its exit status is 0; every argument is found under its path or the one it was renamed to and would not be renamed again; and in each directory that is gone through (the arguments, with -r everything below that is neither hidden nor {arch}) every regular file and directory (everything with --special) has a portable name, unless it is hidden, {arch}, or the name it should have is empty or taken. A second run with the same options on some or all of them under their new names renames nothing, if nothing is called {arch}.", "quantifier": "all command lines, trees, readdir orders and runs", "why_tests_cant": "Joins the command line, start-up, the built-in sequences and the walk in one statement about every tree.", "anchors": ["src/detox.c: main", "src/parse_options.c", "src/config_file_spoof.c", "src/file.c: parse_file, parse_dir"]}
{"id": "C105", "title": "What a dry run announces", "statement": "A dry run that returns and is not hindered by a failing call changes nothing and prints, besides 'Scanning: f' for each argument f if verbose, exactly the lines 'p -> q' where p is a path it comes to (an argument; an entry that is not hidden of a directory given as argument; with -r also of the directories below, all under their present paths; regular files and directories, other kinds with --special) and p would be renamed to q in the tree as it is. It prints nothing at all (not being verbose) if and only if a run in earnest with the same options and arguments on the same tree renames nothing. It is assumed that no entry has a name to be ignored. That every announced rename is carried out by a run in earnest is refuted: of two arguments with the same clean name only one is renamed.", "quantifier": "all options, argument lists, trees, readdir orders and runs", "why_tests_cant": "Every tree and every order of reading it, and both directions of an equivalence.", "anchors": ["src/file.c: parse_file, parse_dir", "src/detox.c: main"]}
