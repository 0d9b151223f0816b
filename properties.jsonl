{"id": "C01", "title": "Instructions run in order and stop at the first error", "statement": "Evaluating a program p1 followed by p2 is evaluating p1 and then, only if p1 succeeded, p2 on the buffer p1 left behind; the value is that of the last instruction (the empty string for an empty program). If an instruction fails, the reported error carries that instruction, its index, the whole program and the buffer text, point and mark at that moment, and no later instruction has any effect.", "quantifier": "every program, every split of it, every function environment and every buffer", "why_tests_cant": "needs all program lengths and all positions of the failing instruction", "anchors": ["edlisp/eval.go:Eval", "edlisp/eval.go:EvalWithTrace", "edlisp/error.go:NewExecutionError"]}
{"id": "C02", "title": "Evaluation of one expression", "statement": "Strings and numbers evaluate to themselves without touching the buffer. A list calls the function named by its first element: the name is resolved before any argument is evaluated, arguments are evaluated left to right and each one's buffer effects are seen by the next, the first failing argument aborts the call, and the function receives exactly the evaluated arguments. An empty list, a list whose head is not a symbol, an unknown function and a bare symbol (so every unquoted word used as an argument) are errors that leave the buffer untouched.", "quantifier": "every expression of every nesting depth, every environment, every buffer", "why_tests_cant": "nesting depth and argument count are unbounded", "anchors": ["edlisp/eval.go:evalExpression"]}
{"id": "C03", "title": "A failing command changes nothing", "statement": "When a built-in command returns an error, the buffer text, point, mark and last-match data are exactly what they were before the call.", "quantifier": "every built-in, every argument list (any arity, any types), every buffer state", "why_tests_cant": "arguments and buffer states are unbounded; a test samples a few failing calls", "anchors": ["edlisp/builtin_*.go", "edlisp/eval.go:NewDefaultEnvironment"]}
{"id": "C04", "title": "Queries and string functions are read-only", "statement": "point, mark, point-min, point-max, buffer-size, line-number-at-pos, current-column, region-beginning, region-end, buffer-substring, looking-at, looking-back, length, substring, concat, upcase, downcase, capitalize, string-match and replace-regexp-in-string never change the buffer text, point, mark or last-match data, whatever they return.", "quantifier": "every listed function, every argument list, every buffer, every regexp engine behaviour", "why_tests_cant": "must hold for every argument and state, including error outcomes", "anchors": ["edlisp/builtin_point.go", "edlisp/builtin_looking_at.go", "edlisp/builtin_substring.go"]}
{"id": "C05", "title": "Motion, search and mark commands never alter text", "statement": "goto-char, goto-line, forward/backward-char, forward/backward-word, beginning/end-of-line, beginning/end-of-buffer, the four searches, set-mark, set-mark-command, exchange-point-and-mark, mark-word, mark-line and mark-whole-buffer never change the buffer text; all of them except the mark-setting ones leave the mark alone, and only the four searches change the last-match data.", "quantifier": "every listed command, every argument list, every buffer", "why_tests_cant": "quantifies over all states and arguments", "anchors": ["edlisp/builtin_goto_char.go", "edlisp/builtin_search_forward.go", "edlisp/builtin_mark_line.go"]}
{"id": "C06", "title": "Every command checks its arguments", "statement": "Each built-in accepts exactly the argument counts and kinds of its documented signature (with optional trailing arguments): any other argument list yields an error and never a crash, and a matching argument list never yields an arity or type error.", "quantifier": "every built-in, every argument list, every buffer", "why_tests_cant": "argument lists are unbounded", "anchors": ["edlisp/builtin_*.go", "edlisp/documentation_registry.go"]}
{"id": "C07", "title": "insert splices the text at point", "statement": "insert puts its argument between the text before and the text after point, moves point just past it, leaves mark and last-match data alone and returns the empty string; with point before position 1 it prepends, beyond the end it appends.", "quantifier": "every buffer, point and inserted string (any bytes)", "why_tests_cant": "all splits of all texts", "anchors": ["edlisp/builtin_insert.go:BuiltinInsert", "edlisp/eval.go:Buffer.Insert"]}
{"id": "C08", "title": "Character motion clamps to the buffer", "statement": "goto-char p moves to p clamped into [1, size+1]; forward-char n moves to point+n clamped into [1, size+1]; backward-char n with n>=0 moves to max(1, point-n). The fractional part of a numeric argument is dropped. backward-char with a negative count does not clamp at the end and leaves point outside the buffer (witness), and a numeric argument outside the 64-bit integer range is converted in a platform-dependent way: on amd64 goto-char 1e19 goes to the beginning.", "quantifier": "every buffer, every finite numeric argument in the 64-bit range", "why_tests_cant": "argument and size ranges are unbounded, boundary arithmetic", "anchors": ["edlisp/builtin_goto_char.go", "edlisp/builtin_forward_char.go", "edlisp/builtin_backward_char.go"]}
{"id": "C09", "title": "Point stays inside the buffer, and crashes are exactly characterised", "statement": "From a state with 1 <= point <= size+1, each built-in call either keeps point in that range, with no crash, or is one of: beginning-of-line on an empty buffer (point becomes 0), exchange-point-and-mark with a mark outside the range, backward-char with a sufficiently negative count, delete-char with a negative count reaching before the buffer (crash). Hence no program free of those calls ever crashes or leaves the range. The unrestricted claim is false: short scripts crash the process (for example beginning-of-line followed by forward-word on an empty file). Running out of memory is not counted as a crash here.", "quantifier": "every program over the built-ins, every input text, every regexp engine that reports in-range matches", "why_tests_cant": "needs all programs and all reachable states", "anchors": ["edlisp/builtin_beginning_of_line.go", "edlisp/builtin_exchange_point_and_mark.go", "edlisp/builtin_delete_char.go", "edlisp/builtin_forward_word.go"]}
{"id": "C10", "title": "Every script terminates", "statement": "Evaluating any program in the default environment terminates: no built-in loops forever, whatever the buffer, point, mark and arguments.", "quantifier": "every program, buffer and argument", "why_tests_cant": "termination for all inputs cannot be tested", "anchors": ["edlisp/eval.go:EvalWithTrace", "edlisp/builtin_forward_word.go", "edlisp/builtin_delete_line.go"]}
{"id": "C11", "title": "search-forward finds the first occurrence at or after point", "statement": "If the string occurs at or after point (and point is before the end), search-forward moves point to the end of the first such occurrence and records it as the last match; otherwise it fails and changes nothing.", "quantifier": "every buffer, point and search string", "why_tests_cant": "'first' and 'no occurrence' range over all positions", "anchors": ["edlisp/builtin_search_forward.go:BuiltinSearchForward"]}
{"id": "C12", "title": "search-backward finds the last occurrence before point", "statement": "search-backward finds the last occurrence lying entirely before point, moves point to its END (not its beginning) and records it; otherwise it fails and changes nothing. Consequently repeating it never makes progress: a second search-backward for the same string leaves the buffer state unchanged.", "quantifier": "every buffer, point and search string", "why_tests_cant": "'last' ranges over all positions", "anchors": ["edlisp/builtin_search_backward.go:BuiltinSearchBackward"]}
{"id": "C13", "title": "Search and replace edits exactly the match", "statement": "After a successful search for a non-empty string, replace-match replaces exactly that occurrence, keeps all text before and after it byte for byte and leaves point after the replacement; without a previous non-empty match it fails. The match is remembered as positions only: after further edits replace-match silently overwrites whatever now lies there (witness).", "quantifier": "every buffer, needle and replacement", "why_tests_cant": "all texts and match positions", "anchors": ["edlisp/builtin_replace_match.go:BuiltinReplaceMatch", "edlisp/builtin_search_forward.go"]}
{"id": "C14", "title": "Region commands act on the text between mark and point", "statement": "delete-region, replace-region, region-beginning, region-end and buffer-substring agree on the region: the text between min(mark,point) and max(mark,point), the same whichever comes first; delete-region removes exactly it and leaves point at its start; replace-region substitutes it and leaves point after the new text; an empty region makes both no-ops (so replace-region on an empty region inserts nothing).", "quantifier": "every buffer with mark and point anywhere, in either order", "why_tests_cant": "all pairs of positions and texts", "anchors": ["edlisp/builtin_delete_region.go", "edlisp/builtin_replace_region.go", "edlisp/builtin_region_beginning.go", "edlisp/builtin_region_end.go"]}
{"id": "C15", "title": "Character deletion", "statement": "delete-char n removes the min(n, remaining) bytes after point and keeps point; delete-backward-char n removes the min(n, preceding) bytes before point and moves point back accordingly. A negative count to delete-char does not delete: it duplicates text before point or crashes (witnesses).", "quantifier": "every buffer, point and count", "why_tests_cant": "all sizes and counts", "anchors": ["edlisp/builtin_delete_char.go", "edlisp/builtin_delete_backward_char.go"]}
{"id": "C16", "title": "Line motion", "statement": "beginning-of-line moves just after the last newline before point (or to the buffer start), end-of-line moves just before the next newline (or to the buffer end); exceptions that do hold in the code: on an empty buffer beginning-of-line sets point to 0, and with point after a final newline it moves to the start of the line before it.", "quantifier": "every buffer and point", "why_tests_cant": "all line structures", "anchors": ["edlisp/builtin_beginning_of_line.go", "edlisp/builtin_end_of_line.go"]}
{"id": "C17", "title": "goto-line and line-number-at-pos agree", "statement": "line-number-at-pos is one plus the number of newlines before point; goto-line n puts point at the start of line n clamped into [1, number of lines], and line-number-at-pos then returns that clamped number.", "quantifier": "every buffer and line number", "why_tests_cant": "all line structures", "anchors": ["edlisp/builtin_goto_line.go", "edlisp/builtin_line_number_at_pos.go"]}
{"id": "C18", "title": "Line selection and deletion", "statement": "mark-line n selects from the start of the current line through the n-th newline from point (or the buffer end); delete-line n removes exactly the text mark-line n selects and leaves point at its start; kill-line with count 1 keeps the byte at point and removes the rest of the line up to (not including) the newline; with another count it removes through the n-th newline.", "quantifier": "every buffer, point and count", "why_tests_cant": "all line structures and counts", "anchors": ["edlisp/builtin_mark_line.go", "edlisp/builtin_delete_line.go", "edlisp/builtin_kill_line.go"]}
{"id": "C19", "title": "Word motion", "statement": "forward-word n skips n times a run of non-word bytes followed by a run of word bytes ([A-Za-z0-9]), stopping at the end; backward-word n is its mirror image; mark-word selects the maximal run of word bytes around point.", "quantifier": "every buffer, point and count", "why_tests_cant": "all texts and counts", "anchors": ["edlisp/builtin_forward_word.go", "edlisp/builtin_backward_word.go", "edlisp/builtin_mark_word.go", "edlisp/helpers.go"]}
{"id": "C20", "title": "Word deletion matches word motion", "statement": "kill-word n removes exactly the text forward-word n moves over and keeps point. backward-kill-word n removes the text backward-word n moves over AND one more byte, the one at point, whenever there is one (so it does not match its documentation; witness).", "quantifier": "every buffer, point and count", "why_tests_cant": "all texts and counts", "anchors": ["edlisp/builtin_kill_word.go", "edlisp/builtin_backward_kill_word.go"]}
{"id": "C21", "title": "Substring extraction", "statement": "substring s a b and buffer-substring a b return the bytes at 1-based positions a..b-1 clamped into the text, and the empty string when the range is empty; they never crash for any numbers; for buffer-substring b = -1 means the end; adjacent pieces concatenate back to the whole.", "quantifier": "every text and every pair of numbers in the 64-bit range", "why_tests_cant": "all numeric arguments, including negative and huge ones", "anchors": ["edlisp/builtin_substring.go", "edlisp/builtin_buffer_substring.go"]}
{"id": "C22", "title": "length and concat", "statement": "concat returns its arguments joined in order, length returns the byte count, and the length of a concat is the sum of the lengths; buffer-size is the length of the whole-buffer substring and point-max is one more.", "quantifier": "every list of strings", "why_tests_cant": "unbounded argument lists", "anchors": ["edlisp/builtin_length.go", "edlisp/builtin_concat.go", "edlisp/builtin_buffer_size.go", "edlisp/builtin_point_max.go"]}
{"id": "C23", "title": "Case conversion", "statement": "On ASCII text upcase/downcase change exactly the letters and are idempotent and length preserving, capitalize upcases the first byte and downcases the rest; on any valid UTF-8 text upcase and downcase map it rune by rune. capitalize on a text starting with a non-ASCII character corrupts it (witness).", "quantifier": "every string; every Unicode case table", "why_tests_cant": "all strings", "anchors": ["edlisp/builtin_upcase.go", "edlisp/builtin_downcase.go", "edlisp/builtin_capitalize.go"]}
{"id": "C24", "title": "Column reporting", "statement": "current-column returns 0 at a newline, and otherwise the number of bytes from the line start through the byte at point inclusive; so at the first byte of a line it returns 1, contradicting the documented 0-based column (witness).", "quantifier": "every buffer and point", "why_tests_cant": "all line structures", "anchors": ["edlisp/builtin_current_column.go"]}
{"id": "C25", "title": "Regexp search uses the engine's match exactly", "statement": "re-search-forward moves to the end of the engine's leftmost match in the text after point, re-search-backward to the end of the last of the engine's successive non-overlapping matches in the text before point (not necessarily the rightmost match: witness), both record the match so that replace-match replaces exactly it; an invalid pattern or no match fails and changes nothing.", "quantifier": "every buffer, pattern and every engine reporting in-range matches", "why_tests_cant": "all texts and patterns", "anchors": ["edlisp/builtin_re_search_forward.go", "edlisp/builtin_re_search_backward.go", "edlisp/builtin_replace_match.go"]}
{"id": "C26", "title": "looking-at, looking-back and string-match", "statement": "looking-at answers t exactly when the engine's leftmost match in the text after point starts at point (for an invalid pattern: when that text starts with the pattern literally); looking-back answers t exactly when the leftmost match before point ends at point - so it may answer nil although the text before point ends with a match (witness); string-match returns the 0-based start of the leftmost match or nil.", "quantifier": "every buffer, point and pattern", "why_tests_cant": "all texts and patterns", "anchors": ["edlisp/builtin_looking_at.go", "edlisp/builtin_looking_back.go", "edlisp/builtin_string_match.go"]}
{"id": "C27", "title": "Value equality", "statement": "Equal is symmetric and transitive, is reflexive exactly on values containing no NaN, holds between two values exactly when they have the same shape with equal strings, symbol names and numerically equal numbers, and nil equals only nil.", "quantifier": "every pair and triple of values of any depth", "why_tests_cant": "unbounded nesting", "anchors": ["edlisp/equal.go:Equal"]}
{"id": "C28", "title": "Quoting round-trips", "statement": "A string written in quoted form and read back as a script token is the same string, byte for byte, for every byte sequence including invalid UTF-8, quotes, backslashes, newlines and control bytes.", "quantifier": "every byte string; every printable-character table", "why_tests_cant": "all byte strings", "anchors": ["edlisp/writer/shell.go:valueToToken", "edlisp/string.go:String", "edlisp/parser/linebased.go:parseToken"]}
{"id": "C29", "title": "S-expression format round-trips", "statement": "Writing a program in S-expression format and parsing it again yields the same program.", "quantifier": "every program whose instructions are non-empty lists of any nesting over token-safe symbols, arbitrary strings and numbers", "why_tests_cant": "unbounded nesting, all strings", "anchors": ["edlisp/writer/sexp.go", "edlisp/list.go:String", "edlisp/parser/linebased.go:ParseString"]}
{"id": "C30", "title": "Shell format round-trips", "statement": "Writing a program of flat commands in shell format and parsing it again yields the same program; a nested list cannot be written in shell format and is reported as an error.", "quantifier": "every program of non-empty flat lists with a token-safe head, arbitrary strings and numbers", "why_tests_cant": "all strings, unbounded programs", "anchors": ["edlisp/writer/shell.go", "edlisp/parser/linebased.go:ParseString"]}
{"id": "C31", "title": "JSON format round-trips for canonical programs", "statement": "Converting a canonical program (symbols exactly at list heads) to JSON values and back yields the same program; a symbol in argument position comes back as a string.", "quantifier": "every program value of any depth", "why_tests_cant": "unbounded nesting", "anchors": ["edlisp/writer/json.go:valueToJSON", "edlisp/parser/json.go:convertJSONValue", "edlisp/parser/json.go:ParseJSONString"]}
{"id": "C32", "title": "The three script formats are interchangeable", "statement": "Executing a canonical program given in shell (when flat), S-expression or JSON-array form on the same input gives identical results. ExecuteScript equals ExecuteScriptWithFormat with shell or sexp.", "quantifier": "every canonical program and every input", "why_tests_cant": "all programs and inputs", "anchors": ["texted.go:ExecuteScriptWithFormat", "texted.go:ExecuteScript"]}
{"id": "C33", "title": "Script structure: newlines and semicolons", "statement": "A script is the concatenation of its lines: parsing a script split at a newline is parsing both parts in order; a semicolon outside quotes separates commands like a newline; blank lines, leading and trailing blanks have no effect; an unterminated quote, a stray or missing parenthesis is an error for the whole script.", "quantifier": "every script text", "why_tests_cant": "all texts and all split points", "anchors": ["edlisp/parser/linebased.go:ParseReader", "edlisp/parser/linebased.go:splitOnSemicolons", "edlisp/parser/linebased.go:tokenize"]}
{"id": "C34", "title": "Text after a closed list is dropped", "statement": "On a line starting with '(' everything after the matching ')' is silently ignored: the second of two S-expressions on one line is never executed (so 'every command written is executed' is false).", "quantifier": "every pair of S-expressions", "why_tests_cant": "all expressions", "anchors": ["edlisp/parser/linebased.go:parseSExpression"]}
{"id": "C35", "title": "Script errors never corrupt a file", "statement": "EditFile and EditFileWithFormat replace the file's content by exactly the result of executing the script on it, touching no other file; if reading, parsing or executing fails, no file is modified at all.", "quantifier": "every file system, file name, script, and I/O failure", "why_tests_cant": "all scripts and failure points", "anchors": ["texted.go:EditFile", "texted.go:EditFileWithFormat"]}
{"id": "C36", "title": "Multi-file editing is per-file independent", "statement": "EditFiles returns one result per requested file in order, never an overall error; for distinct files each file's final content and verdict is what editing it alone would give, whatever happens to the others.", "quantifier": "every list of files, every script, every pattern of per-file failures", "why_tests_cant": "all file lists and failure patterns", "anchors": ["texted.go:EditFiles", "texted.go:EditFilesWithFormat"]}
{"id": "C37", "title": "Dry run and expression mode never write files", "statement": "texted edit --dry-run performs no file write whatever the other flags are; texted edit -e never writes a file, and its expressions share one buffer in order.", "quantifier": "every combination of flags, files, scripts and I/O outcomes", "why_tests_cant": "all flag combinations and inputs", "anchors": ["commands/edit.go:runEdit", "commands/edit.go:processFilesInPlace", "commands/edit.go:evaluateExpressionsOnContent"]}
{"id": "C38", "title": "Backups survive a crash at any point", "statement": "With --in-place --backup, at every moment during the run - so also if the process is killed or a write fails half way - each edited file's original content is complete either in the file itself or in its backup file, provided no backup name is itself one of the edited files. Without that proviso it is false (witness).", "quantifier": "every crash point, every pattern of I/O failures and partial writes, every list of distinct files and script", "why_tests_cant": "all crash points and failure patterns", "anchors": ["commands/edit.go:processFilesInPlace"]}
{"id": "C39", "title": "In-place editing is not atomic", "statement": "Without a backup, a crash during an in-place edit or EditFile can leave the file empty or holding a strict prefix of the new content (witness); at every moment it holds the old content, or a prefix of the new one.", "quantifier": "every crash point and write split", "why_tests_cant": "all crash points", "anchors": ["texted.go:writeFile", "commands/edit.go:processFilesInPlace"]}
{"id": "C40", "title": "Flag validation happens before any I/O", "statement": "An invalid format, --output with several files, --backup without --in-place, or --output with --in-place makes texted edit fail without reading or writing any file or stdin.", "quantifier": "every flag combination and file system", "why_tests_cant": "all combinations", "anchors": ["commands/edit.go:runEdit"]}
{"id": "C41", "title": "Output destination of edit", "statement": "Without --in-place, texted edit never modifies its input file (unless it is itself the --output target); the transformed text goes to stdout, or to exactly the --output file; several files without --in-place is an error without effect.", "quantifier": "every flag combination, file, script", "why_tests_cant": "all combinations", "anchors": ["commands/edit.go:processFiles", "commands/edit.go:processStdin", "commands/edit.go:processSingleFileToOutput", "commands/edit.go:processSingleFileToStdout"]}
{"id": "C42", "title": "loopUntilError stops exactly at the first failing round", "statement": "The edit_file tool with loopUntilError runs whole rounds over all files and returns after the first round in which some file fails, reporting that round's number and results; every file is edited in every earlier round; if no round ever fails it never returns (witness), and files with more matches left are not edited further once another file fails.", "quantifier": "every file list, script and number of rounds", "why_tests_cant": "unbounded rounds", "anchors": ["tools/edit_file.go:editFilesWithLoop", "tools/edit_file.go:EditFileHandler"]}
{"id": "C43", "title": "Tracing is transparent", "statement": "A trace callback that only observes is called once after each successful instruction, in order, with the buffer state that instruction left, and does not change the result.", "quantifier": "every program, environment, buffer and observing callback", "why_tests_cant": "all programs", "anchors": ["edlisp/eval.go:EvalWithTrace"]}
{"id": "C44", "title": "Documentation listings do not depend on map order", "statement": "Whatever order the registry map is iterated in, listing all functions, a category or the categories returns the same list, sorted, containing each registered entry once. The verbose tool listing, in contrast, depends on the map iteration order (witness).", "quantifier": "every registry content and every iteration order", "why_tests_cant": "map order is nondeterministic", "anchors": ["edlisp/documentation_registry.go:GetAllDocumentation", "edlisp/documentation_registry.go:GetDocumentationByCategory", "edlisp/documentation_registry.go:GetCategories", "tools/texted_doc.go:formatFunctionList"]}
{"id": "C45", "title": "The test runner's verdict", "statement": "A test passes exactly when: with an expected error, evaluation failed and its message contains the expectation stripped of parentheses; otherwise evaluation succeeded, at least one expectation is present, the buffer equals the expected output when that is non-empty and the value equals the expected result when that is non-empty. In particular an expected empty output is never checked (witness).", "quantifier": "every test case and environment", "why_tests_cant": "all test cases", "anchors": ["edlisp/testing/testing.go:RunTestWithTrace"]}
{"id": "C46", "title": "Custom environments", "statement": "Replacing or adding one function in an environment changes the behaviour only of programs in which that name is called.", "quantifier": "every program, environment, function and name", "why_tests_cant": "all programs", "anchors": ["edlisp/eval.go:Environment", "edlisp/eval.go:evalExpression"]}
{"id": "C47", "title": "Script line length limit", "statement": "A script containing a line of 65536 bytes or more is rejected with an error instead of being executed in part; lines up to 65535 bytes are accepted.", "quantifier": "every script", "why_tests_cant": "all line lengths", "anchors": ["edlisp/parser/linebased.go:ParseReader"]}
{"id": "C48", "title": "texted_eval tool", "statement": "In buffer mode texted_eval returns exactly what ExecuteScript returns; in expression mode it returns the printed value of the last instruction; any other mode, missing argument or script failure is an error result, and no file is ever touched.", "quantifier": "every request", "why_tests_cant": "all inputs", "anchors": ["tools/texted_eval.go:TextedEvalHandler"]}
{"id": "C49", "title": "Positions reported to a script are exact and can be fed back", "statement": "point, point-min, point-max and buffer-size report exactly the integer they stand for (as long as it is below 2^53), goto-char applied to the value reported by point is a no-op, goto-char of point-min or point-max moves to the first or last position, and buffer-substring between region-beginning and region-end is the text delete-region would remove.", "quantifier": "every buffer of fewer than 2^53 bytes", "why_tests_cant": "all buffers; float64 carries every number a script sees", "anchors": ["edlisp/builtin_point.go:BuiltinPoint", "edlisp/builtin_goto_char.go:BuiltinGotoChar", "edlisp/builtin_region_beginning.go:BuiltinRegionBeginning", "edlisp/builtin_buffer_substring.go:BuiltinBufferSubstring"]}
{"id": "C50", "title": "The documentation tool finds what is documented", "statement": "texted_doc and texted doc answer a function name with its entry exactly when it is registered, otherwise texted_doc offers at most three registered names containing it or contained in it; a category is listed exactly when some function is in it; name and category together are refused; registering replaces only the entry of the same name.", "quantifier": "every registry, request and map iteration order", "why_tests_cant": "all registries and orders", "anchors": ["tools/texted_doc.go:TextedDocHandler", "commands/doc.go:runDoc", "edlisp/documentation_registry.go:GetDocumentation"]}
{"id": "C51", "title": "Documentation and commands agree", "statement": "Exactly the commands of the default environment are documented, all cross references resolve, and for every command but concat the argument lists that are accepted are exactly those fitting the documented parameters: any other argument list is rejected without effect. concat accepts more than its documentation says (witness).", "quantifier": "every documented command, all argument lists and buffers", "why_tests_cant": "all argument lists", "anchors": ["edlisp/documentation_registry.go:RegisterDocumentation", "edlisp/builtin_concat.go:init", "edlisp/eval.go:NewDefaultEnvironment"]}
{"id": "C52", "title": "Expressions given with -e arrive as comma-separated values", "statement": "Each occurrence of -e is read as one CSV record: its value is split at commas outside quotation marks, leading empty lines are skipped, only the first line counts and doubled quotation marks inside a quoted field stand for one. Expressions without comma, quotation mark and line break arrive unchanged and in order; one with a string literal after a command name is refused before anything is read, evaluated or written - so the documented use of -e always fails (witness) - and quoting with doubled quotation marks makes any expression arrive.", "quantifier": "every list of flag values", "why_tests_cant": "all strings; the tests never pass -e through the flag parser", "anchors": ["commands/edit.go:NewEditCommand", "commands/edit.go:runEdit"]}
{"id": "C53", "title": "The worked examples of the documentation", "statement": "The documented scripts do what the documentation says for every input: searching and replacing replaces exactly the first occurrence or fails without output, inserting a header or a comment line, deleting lines 10 to 14, replacing the whole text (except an empty one, witness). Comment lines, the JSON example, the example of the help text and the example program of the specification do not work (witnesses).", "quantifier": "every input text, search text and replacement", "why_tests_cant": "all inputs", "anchors": ["texted.go:ExecuteScript", "edlisp/parser/linebased.go:ParseString", "edlisp/parser/json.go:ParseJSONString"]}
{"id": "C54", "title": "Exit status of texted test", "statement": "texted test runs exactly the files whose last path component matches one of the --include patterns (all, without patterns), in order, writes no file, and exits with status 0 exactly when every selected test passes; the summary counts exactly the selected tests that passed and failed. No selected test at all counts as success; an invalid first pattern is reported with status 1 before any test runs, but a later one can go unnoticed (witness).", "quantifier": "every file list, pattern list, file system content and flag combination", "why_tests_cant": "all combinations", "anchors": ["commands/test.go:runTests", "edlisp/testing/testing.go:RunTestFileWithTrace", "edlisp/testing/testing.go:RunTestWithTrace"]}
{"id": "C55", "title": "Reports of texted test", "statement": "Each selected test is reported once, in order, as PASS with its name or FAIL with its name and an error; --fail-only leaves out exactly the passing ones, --quiet all of them; --trace changes no result and prints each successful instruction with the buffer it left. --verbose has no effect at all (refuting its help text) and the instruction shown by --trace does not determine the instruction executed (witness).", "quantifier": "every run of texted test", "why_tests_cant": "all test files and flag combinations", "anchors": ["commands/test.go:printTestResult", "commands/test.go:createTraceCallback", "commands/test.go:formatInstruction", "edlisp/testing/testing.go:formatValue"]}
{"id": "C56", "title": "Converting scripts with texted parse", "statement": "texted parse writes no file and prints nothing when a format is unknown or the input cannot be parsed. Whatever it accepts in shell or s-expression form, it writes as s-expressions that are read as the very same program - with the same effect on every buffer - provided no written instruction reaches 65536 bytes (without that the output can be unreadable, witness); converting the output again changes nothing. JSON converted to JSON is the same program without any limit. Conversion to JSON yields the documented image. Every number in an accepted script is a float64. Conversions through JSON, from JSON to s-expressions and through the shell form can change the program, and output printed before an error stays (witnesses).", "quantifier": "every input text and format", "why_tests_cant": "all texts, arbitrary nesting, Unicode and number forms", "anchors": ["commands/parse.go:runParse", "commands/parse.go:parseInput", "commands/parse.go:writeOutput", "edlisp/parser/linebased.go:ParseReader", "edlisp/parser/json.go:ParseJSONReader", "edlisp/writer/sexp.go:Write"]}
{"id": "C57", "title": "Documentation pages are complete", "statement": "The page of the texted_doc tool and the page of texted doc for a registered function contain, labelled as documented, the name, the summary or description, every parameter with its type and description, every example with its description, buffer and input, the category and every related function. texted doc also shows which parameters are optional and what the examples result in; the page of the tool shows neither, so two functions taking different calls can have the same page (witness).", "quantifier": "every registered documentation record and every field of it", "why_tests_cant": "all records; the tests look at a few substrings of one page", "anchors": ["tools/texted_doc.go:formatFunctionDoc", "commands/doc.go:showFunctionDoc"]}
{"id": "C58", "title": "Documentation listings", "statement": "Without a name both the texted_doc tool and texted doc list every registered function exactly once: sorted by name when short, in verbose form under its category with its summary, by name within the category, functions without one under the catch-all title, with the exact count on top. Each category appears once; only the order of the categories depends on the iteration order of Go's maps (that it does is part of C44).", "quantifier": "every registry and every iteration order", "why_tests_cant": "all registries and all map iteration orders", "anchors": ["tools/texted_doc.go:formatFunctionList", "commands/doc.go:listFunctions", "edlisp/documentation_registry.go:GetAllDocumentation"]}
{"id": "C59", "title": "No byte from nowhere", "statement": "After any program - finished or stopped by an error - every byte of the buffer and of the result comes from the buffer it started on or from a string written in the program, as long as upcase, downcase and capitalize are not used. With them, this still holds for every ASCII byte that is not a letter (so a buffer without newlines stays one line unless the program contains a newline), and pure ASCII text and programs give pure ASCII text; for other bytes it fails (witness: downcase of an invalid byte inserts U+FFFD).", "quantifier": "every program, buffer and engine that replaces with parts of the text and the replacement", "why_tests_cant": "all programs and byte strings", "anchors": ["edlisp/eval.go:Eval", "edlisp/builtin_insert.go:BuiltinInsert", "edlisp/builtin_concat.go:BuiltinConcat", "edlisp/builtin_replace_match.go:BuiltinReplaceMatch", "edlisp/builtin_downcase.go:BuiltinDowncase"]}
{"id": "C60", "title": "Characters stay whole", "statement": "Programs made of searches, replace-match, insert, kill-word, delete-line, word, line and buffer motions, the mark commands and the region commands, that use the last match only after a search and the mark only after setting it without an edit in between, turn well-formed UTF-8 into well-formed UTF-8 and leave point between two characters; they never crash, whether they finish or stop at an error. Each of the other commands (delete-char, forward-char, backward-char, goto-char, beginning-of-line, kill-line, backward-kill-word, buffer-substring, substring) and the use of a stale match or mark can cut a character (witnesses).", "quantifier": "every such program, every UTF-8 text and every engine whose matches are whole characters", "why_tests_cant": "all texts with characters of every width and all programs of the class", "anchors": ["edlisp/eval.go:Eval", "edlisp/builtin_search_forward.go:BuiltinSearchForward", "edlisp/builtin_replace_match.go:BuiltinReplaceMatch", "edlisp/builtin_kill_word.go:BuiltinKillWord", "edlisp/builtin_delete_line.go:BuiltinDeleteLine", "edlisp/builtin_replace_region.go:BuiltinReplaceRegion"]}
{"id": "C61", "title": "Selecting and undoing", "statement": "set-mark sets the mark to point, exchange-point-and-mark swaps them (twice is the identity, the region stays), mark-whole-buffer puts the mark at the beginning and point at the end, and its region is the whole text; replace-region after it leaves exactly the replacement (fails on an empty buffer, witness). An insertion is undone by delete-backward-char with its length, back to the very same buffer state; what kill-word, backward-kill-word, delete-line, delete-char, delete-backward-char and delete-region removed, one insert at the remaining point puts back (fails for kill-line, witness); a replacement is undone by searching the new text and replacing it with the old.", "quantifier": "every buffer, argument and engine", "why_tests_cant": "all buffers, positions and pairs of commands", "anchors": ["edlisp/builtin_set_mark.go:BuiltinSetMark", "edlisp/builtin_exchange_point_and_mark.go:BuiltinExchangePointAndMark", "edlisp/builtin_mark_whole_buffer.go:BuiltinMarkWholeBuffer", "edlisp/builtin_delete_region.go:BuiltinDeleteRegion", "edlisp/builtin_kill_line.go:BuiltinKillLine"]}
{"id": "C62", "title": "The grammar of JSON scripts", "statement": "A text is accepted as a JSON script exactly when it belongs to the grammar: white space, an array of calls - arrays whose first element is a string, the others strings, numbers or such arrays, at most 10000 deep - or null; strings with the eight letter escapes, hexadecimal escapes, surrogate pairs, U+FFFD for half pairs and malformed bytes; numbers within range. The program is exactly the one the grammar denotes, every other text is rejected with an error, and the grammar is unambiguous. The stream reader of texted parse accepts exactly sequences of such values, a number ending where no number continues; no non-empty script is also a stream.", "quantifier": "every byte string", "why_tests_cant": "all byte strings, including all escapes, malformed UTF-8, number forms and nesting depths", "anchors": ["edlisp/parser/json.go:ParseJSONString", "edlisp/parser/json.go:ParseJSONReader", "edlisp/parser/json.go:convertJSONArray", "edlisp/parser/json.go:validateJSONValue"]}
{"id": "C63", "title": "The grammar of shell and s-expression scripts", "statement": "A text is accepted as a script in shell or s-expression form exactly when it belongs to the grammar: lines of fewer than 65536 bytes, commands separated by semicolons outside quotes and surrounded by Unicode white space, each either words and lists or a parenthesised list after which the rest of the command is dropped; words run to the next blank or parenthesis outside quotes; a word that begins and ends with quotes is a Go string literal with all its escapes, any other a number if it reads as one and a symbol otherwise; malformed bytes count as U+FFFD. The program is exactly the one the grammar denotes, every other text is rejected with an error, the grammar is unambiguous, and every command is a list. The parser for single expressions accepts exactly its grammar on well-formed text.", "quantifier": "every byte string; for single expressions, every well-formed text", "why_tests_cant": "all byte strings: quotes, escapes, semicolons, parentheses, white space and malformed UTF-8 in every combination", "anchors": ["edlisp/parser/linebased.go:ParseReader", "edlisp/parser/linebased.go:tokenize", "edlisp/parser/linebased.go:splitOnSemicolons", "edlisp/parser/linebased.go:parseToken", "edlisp/parser/linebased.go:parseShellLike", "edlisp/parser/linebased.go:ParseSexp"]}
{"id": "C64", "title": "The MCP server offers three tools, checks their arguments, and shares nothing but files between requests", "statement": "For every prefix the server lists exactly three distinct tool names, the prefix followed by edit_file, texted_doc and texted_eval, in order; any other name, including the plain names when a prefix is set, is refused with a protocol error and touches nothing. edit_file edits exactly the files given, once, or until something fails when loopUntilError says yes (true, a string strconv.ParseBool takes for true, or a nonzero number); texted_eval runs the script on the input; texted_doc answers about the function. Required arguments that are missing or of the wrong type give a tool error and touch nothing. texted_eval and texted_doc never touch files nor depend on them; over a whole session only files named in an edit_file request change, and each request is answered as by a server freshly started on the files as they then are. The claims that the server survives every request and that it always answers are refuted.", "quantifier": "every prefix, every sequence of requests with arbitrary decoded arguments, every file system and fault schedule", "why_tests_cant": "sessions and argument shapes are unbounded; a test sends a few well-formed requests", "anchors": ["commands/mcp.go:runMCPServer", "tools/edit_file.go:NewEditFileToolWithPrefix", "tools/edit_file.go:EditFileHandler", "tools/texted_eval.go:TextedEvalHandler", "tools/texted_doc.go:TextedDocHandler"]}
{"id": "C65", "title": "Processes editing at the same time", "statement": "Any number of processes run EditFiles at once, their system calls interleaved in any order, reads and writes split anywhere, calls failing anywhere. If no two processes were given the same file, each process gets exactly where it could get alone and leaves the contents it would leave alone; without failures those are the results and contents of the sequential EditFiles (C36), and a process alone always comes to an end. Files nobody was asked to edit never change. Nobody ever waits: a process is done, dead, or can take its next step. Any property of bytes that zero bytes and the initial files have and the scripts keep is kept at all times, even when files are shared. For a shared file nothing more holds (witnesses): an update can be lost, the whole text can be lost, and zero bytes that are neither in the text nor in the scripts can appear, all with every process reporting success.", "quantifier": "every number of processes, every script, file system, interleaving, split of reads and writes, and pattern of failures", "why_tests_cant": "interleavings and splits are unboundedly many and not under the control of a test", "anchors": ["texted.go:EditFiles", "texted.go:EditFile", "texted.go:readFile", "texted.go:writeFile"]}
{"id": "C66", "title": "replace-regexp-in-string replaces exactly the matches", "statement": "For every regexp engine whose ReplaceAllString replaces the matches its FindAllStringIndex reports (as Go documents for replacements without a dollar sign), replace-regexp-in-string with a valid pattern answers the text between the matches, unchanged and in order, with the replacement in place of every match; without a match it answers the string itself; an invalid pattern is an error; the buffer is never changed and never matters. The documented 'all matches of the pattern replaced by the replacement string' is false: a replacement such as $1 is expanded, so the text of the replacement disappears.", "quantifier": "all engines meeting the contract, patterns, replacements, strings, buffers", "why_tests_cant": "The tests replace one literal and one class of digits; they cover neither adjacent or empty matches, nor a dollar sign in the replacement, nor the order of the three string arguments in general.", "anchors": ["edlisp/builtin_replace_regexp_in_string.go:BuiltinReplaceRegexpInString"]}
{"id": "C67", "title": "Error reports name the failing instruction, point and mark", "statement": "When a program fails, the text of the error is the message of the failing function followed by the number of the first failing instruction counted from 0, its printed form, and the point and mark the failing instruction left, each in plain decimal; the text determines point and mark whatever the message and the instruction contain. ExecuteScript, the eval tool and texted edit -e all report this text; the buffer mode of the eval tool says that the execution of a script failed which did not even parse. A writer for an unknown format is an error and writes nothing.", "quantifier": "all programs, environments, buffers, error texts, output formats", "why_tests_cant": "Tests compare error texts by substring on a few scripts; that the numbers in the report are those of the failing state, for every program, cannot be sampled.", "anchors": ["edlisp/error.go:Error", "edlisp/error.go:NewExecutionError", "edlisp/writer/writer.go:NewWriter", "tools/texted_eval.go:TextedEvalHandler", "commands/edit.go:evaluateExpressionsOnContent", "texted.go:ExecuteScript"]}
{"id": "C68", "title": "A numeral in a script is the float64 nearest to its value", "statement": "Every decimal numeral, with or without sign, fraction and exponent (below 100000), reads as the float64 nearest to the rational number it denotes: no other float64 is nearer, and if another is as near then the one read has the even mantissa; zero keeps the sign it is written with. The token becomes a symbol instead of a number exactly when the magnitude is at least half a unit above the largest float64. Integers given to NewIntNumber are converted to the nearest number in the same sense. The description allows a single float64, so two numerals of equal value and sign are the same number however they are written. For larger exponents the claim is refuted: a numeral of value 1 reads as 0.", "quantifier": "all decimal numerals of any length with exponent below 100000; all integers below 2^1000", "why_tests_cant": "Rounding goes wrong on rare inputs (ties, subnormals, the largest numbers, thousands of digits); sampling practically never meets them.", "anchors": ["edlisp/parser/linebased.go:parseToken", "edlisp/number.go:NewIntNumber", "edlisp/number.go:NewNumber"]}
{"id": "C69", "title": "The text of a number is exact for integers and otherwise the shortest decimal that reads back", "statement": "Number.String writes an integer in the range of int exactly, in plain decimal. Every other finite number (but 2^63) is written, with its sign, as a decimal that rounds to it, of at most 17 digits; no decimal with fewer digits rounds to it, none with as many digits is nearer, of two equally near ones it is the one with the even last digit, and there is no superfluous zero at either end, so that there is only one such text; the layout is that of %g: an exponent of at least two digits when it is below -4 or at least 6, otherwise a decimal point. -0, NaN and the infinities have their own texts, and different numbers have different texts. The text of 2^63 depends on the processor (witness), all others do not.", "quantifier": "all float64 values, all behaviours of out-of-range conversions", "why_tests_cant": "That the digits are the fewest and the nearest is a statement about all decimals for each of 2^64 numbers.", "anchors": ["edlisp/number.go:String"]}
{"id": "C70", "title": "List methods never change a list, and only Rest and NewList share storage", "statement": "On any heap of lists, First, Get, Len and IsEmpty answer what the sequence of elements says (nil outside it, never a panic); Rest yields all elements but the first and Append all elements and one more; and no sequence of calls to NewList, NewEmptyList, Rest and Append changes the elements of any list that existed before. A caller who assigns to an element of the result of Append reaches no other list; one who assigns to an element of Rest reaches the list it was taken from.", "quantifier": "for all heaps in which every slice lies within its array, all lists, indices and elements, and all sequences of calls", "why_tests_cant": "Aliasing bugs of Go slices depend on which lists share an array and in what order they are extended; a test sees a handful of orders, and the shared array is invisible until somebody writes to it.", "anchors": ["edlisp/list.go:NewList", "edlisp/list.go:NewEmptyList", "edlisp/list.go:Len", "edlisp/list.go:IsEmpty", "edlisp/list.go:First", "edlisp/list.go:Rest", "edlisp/list.go:Append", "edlisp/list.go:Get"]}
{"id": "C71", "title": "The command line means what its grammar says, and every run can be asked for", "statement": "For each of the five commands the arguments are read as a declarative grammar says: --name=value, --name value, -c value, -cvalue, -c=value, on/off flags alone or clustered, files in between, everything after -- a file. A command line has at most one meaning, and one without meaning ends with status 1 and no effect at all; so does an unknown command. Every option has the documented name, letter and effect: read from left to right, starting from the documented defaults, the options say which run is made. Command lines compose, the last setting of a flag counts, expressions and patterns collect. Whatever texted edit, test, parse, doc and mcp can be made to do has a command line, for any script, any bytes in expressions, any file names. texted edit exits with 0 exactly when the edit succeeds, otherwise with 1 and the error; --help only prints. texted edit -i -s SCRIPT -- FILES with status 0 has put the script's result into every file; without -i no file but the one named by --output is written, against the help text; and --in-place false turns it on and adds the file false.", "quantifier": "for all argument lists, flag tables without ambiguity (the five of the program are shown to be such), operating systems, initial file systems, schedules of faults", "why_tests_cant": "Flag spellings combine freely; a test tries a few combinations. That every behaviour is reachable from the command line, and that no refused command line has an effect, are statements about all argument lists.", "anchors": ["cmd/texted/main.go:main", "commands/edit.go:NewEditCommand", "commands/parse.go:NewParseCommand", "commands/test.go:NewTestCommand", "commands/doc.go:NewDocCommand", "commands/mcp.go:NewMCPCommand"]}
{"id": "C72", "title": "A failing test says why", "statement": "The report of a test that fails is exactly one of nine complaints, and the right one: the program does not parse; an expected error did not occur, or another did; an unexpected error; nothing is expected; the text differs; the expected result cannot be read, or is several expressions (with their number), or differs from the value. The message, the expected and the actual text are as the relation says, whether or not a trace is printed; a passing test reports nothing. Values are shown as expressions, whole numbers without a point, strings in quotation marks without escapes, a result that is missing as nil.", "quantifier": "for all test cases, environments, test names, with and without trace", "why_tests_cant": "The nine complaints depend on combinations of parse results, evaluation results and expectations; the existing tests of the test runner look at pass or fail only.", "anchors": ["edlisp/testing/testing.go:RunTestWithTrace", "edlisp/testing/testing.go:RunTest", "edlisp/testing/testing.go:formatValue", "commands/test.go:formatInstruction"]}
{"id": "C73", "title": "Which words are numbers", "statement": "A word of a script without quotes is a number if and only if it is the name of one - an optionally signed inf or infinity, or nan, in capital or small letters - or a numeral: decimal or hexadecimal digits with at most one point, single underscores only between digits or right behind the prefix 0x and before a digit, an exponent in decimal digits (obligatory for hexadecimal numerals, where it is a power of two), and a value below the overflow threshold. It is then the float64 nearest to the numeral's value, ties to even. Every other word is a symbol. (Exact for words of up to 2000 bytes, and for any length if the exponent is below 100000.)", "quantifier": "all byte strings; all float64 numbers", "why_tests_cant": "The words a tester thinks of are plain decimals; the grammar has sixteen interacting choices (sign, prefix, grouping, point, exponent, case), and what must be shown about the refused words - that a word like 123_.5 or 0x1_p0 silently becomes a symbol instead - is a statement about everything outside the grammar.", "anchors": ["edlisp/parser/linebased.go:parseToken", "edlisp/number.go:Number"]}
{"id": "C74", "title": "A refused script is told the first thing wrong with it", "statement": "A text that is not a script is refused with the message for the first thing wrong with it, in reading order: the first line of 65536 bytes or more, or the first line with a command that is wrong; in that line an unclosed quotation mark in the last command, or the first command with a closing parenthesis outside any list, a list that is never closed, or a quoted word that is not a string literal (named in the message). Every text is either a script or has exactly one such first error; no other message of the parser ever appears.", "quantifier": "all byte strings", "why_tests_cant": "The parser has seven error messages spread over six functions, and which one is reported depends on how line splitting, semicolon splitting, trimming and tokenizing interact: a quote left open in a later command hides an error in that command but not one in an earlier one. Two of the messages cannot occur at all, which only a proof over all texts shows.", "anchors": ["edlisp/parser/linebased.go:ParseString", "edlisp/parser/linebased.go:ParseReader", "edlisp/parser/linebased.go:tokenize", "edlisp/parser/linebased.go:parseTokens", "edlisp/parser/linebased.go:parseShellLike", "edlisp/parser/linebased.go:parseToken", "edlisp/parser/linebased.go:ParseSexp"]}
{"id": "C75", "title": "What texted edit and texted parse say", "statement": "For every set of flags, every file system and every schedule of faults, a run of texted edit (and of texted parse) takes exactly the steps, prints exactly the lines and ends with exactly the message that its description gives: nonsensical flags are refused with the message of the first complaint; every file edited in place gets exactly one line, a check mark or a cross with the step that failed and its error, a failing file does not stop the others, and the run succeeds exactly when there is no cross; otherwise the error names the step that failed (reading, processing); remarks on progress appear only with --verbose; --quiet silences everything but the edited text. Two natural expectations are refuted: a dry run checks neither script nor files, and an invalid --output-format is noticed only when the first value is written (with --quiet never).", "quantifier": "all flags, scripts, expressions, file lists, file systems, fault schedules, values of standard input", "why_tests_cant": "The messages depend on which of up to six operations fails first, on every file, under every combination of --verbose, --quiet, --dry-run, --backup, --output and --in-place; no test checks a single line printed by the command.", "anchors": ["commands/edit.go:runEdit", "commands/edit.go:runExpressions", "commands/edit.go:evaluateExpressionsOnContent", "commands/edit.go:processStdin", "commands/edit.go:processFiles", "commands/edit.go:processSingleFileToOutput", "commands/edit.go:processSingleFileToStdout", "commands/edit.go:processFilesInPlace", "commands/parse.go:runParse"]}
{"id": "C76", "title": "A refused JSON script is told what is wrong first", "statement": "The decoder accepts exactly the texts of RFC 8259 with at most 10000 levels, read as the grammar says (objects included). A JSON script that is no program is refused for the first thing that is wrong, and told so: the text is no JSON; it is JSON but not an array (with the kind of value found); the first instruction that is not a call, with its position, and inside it the path of positions down to the first boolean, null, object, or array without a name (with the type found instead). Instructions before it are fine; text after it does not matter. A stream read by texted parse is refused for its first wrong value, in the order of the stream even if later text is no JSON. Every text is either a script or has exactly one flaw.", "quantifier": "for all texts", "why_tests_cant": "The complaints are nested to any depth and depend on the first of any number of flaws; tests look at a few texts, and only at whether they are refused.", "anchors": ["edlisp/parser/json.go:ParseJSONString", "edlisp/parser/json.go:ParseJSONReader", "edlisp/parser/json.go:ValidateJSONFormat", "edlisp/parser/json.go:convertJSONValue", "edlisp/parser/json.go:convertJSONArray", "edlisp/parser/json.go:convertJSONItem"]}
{"id": "C77", "title": "The documentation answers exactly this", "statement": "Whatever the registry holds, the answers the documentation tool and texted doc can give are exactly those of a line-by-line description: the page of a function has its parts in a fixed order, each with its heading and present only if there is something to show; a listing counts and names the functions in order of name, or has them by category with their summaries; an unknown name is answered with the first three similar names, an unknown category with all categories in order, and every other wrong request with its message. White space at the end of the tool's text is removed and nothing else is. Only the order of the categories of a verbose listing is left open, and every order can occur.", "quantifier": "for all registries, requests and orders of iteration", "why_tests_cant": "Which of the seven parts of a page are present, any number of parameters and examples, any text in them, and every order in which Go iterates its maps; tests look for a few words in a few answers.", "anchors": ["tools/texted_doc.go:TextedDocHandler", "tools/texted_doc.go:handleFunctionDoc", "tools/texted_doc.go:handleCategoryListing", "tools/texted_doc.go:handleAllFunctions", "tools/texted_doc.go:formatFunctionDoc", "tools/texted_doc.go:formatFunctionList", "commands/doc.go:runDoc", "commands/doc.go:showFunctionDoc", "commands/doc.go:listFunctions"]}
{"id": "C78", "title": "The complete manual of the commands", "statement": "For each of the 50 commands there is a written entry that says, for every list of arguments and every state of the editor, what the call does: which arguments are refused and with what message, what value it gives, what becomes of text, point, mark and last match, when it fails, when it crashes, and when it runs out of memory. This includes states whose point or mark lies outside the text, counts at the limits of 64-bit arithmetic and arguments of every kind. The program does exactly what the entry says, the entries never contradict each other and leave no case open, no call runs forever, and no call leads to a state the entries do not cover.", "quantifier": "all commands, all argument lists, all buffer states with 64-bit positions and text up to the allocation limit, all regular expression libraries and Unicode tables", "why_tests_cant": "A test fixes one state and one argument list; here every combination has an entry, and no two entries clash.", "anchors": ["edlisp/eval.go:NewDefaultEnvironment", "edlisp/builtin_insert.go:BuiltinInsert", "edlisp/builtin_kill_word.go:BuiltinKillWord", "edlisp/builtin_backward_char.go:BuiltinBackwardChar", "edlisp/builtin_substring.go:BuiltinSubstring"]}
{"id": "C79", "title": "The meaning of a script, exactly", "statement": "The meaning of a script is given without the interpreter: a grammar says which program a text stands for or why it stands for none, rules of meaning say what an expression does in terms of the manual of the commands (arguments from left to right, the first one that does not finish decides, an unknown name or a head that is no name is an error), and a program is its instructions one after the other. For every text and every script, in words, expressions or JSON, what comes out - the edited text, the exact message with the number, the notation of the instruction, point and mark, or a crash - is what these rules say and nothing else. The rules give every script exactly one result.", "quantifier": "for all input texts below the allocation limit, all scripts (all byte sequences), all programs and all editor states", "why_tests_cant": "It equates the whole chain from bytes of a script to the result with a description that does not execute anything; tests can only compare single scripts.", "anchors": ["edlisp/eval.go:EvalWithTrace", "edlisp/eval.go:evalExpression", "texted.go:ExecuteScript", "texted.go:ExecuteScriptWithFormat", "tools/texted_eval.go:TextedEvalHandler", "edlisp/error.go:Error", "edlisp/string.go:String", "edlisp/list.go:String"]}
{"id": "C80", "title": "What the writers write, exactly", "statement": "For every value and every output format, what is written, byte for byte, or the exact error is given by rules stated without the writers: the s-expression form; the shell form, which refuses everything but a flat list; and JSON, with the escapes of encoding/json (HTML characters, control characters, U+2028, bytes that are not UTF-8) and with numbers as the shortest nearest decimal laid out as JavaScript does; a value with a NaN or an infinity is refused naming the first one. A program is written expression by expression, one per line, and what was written before an error stays. The command texted parse therefore prints, for every input in every pair of formats, exactly what the grammar of the input and these rules say, and ends with exactly that answer.", "quantifier": "for all values whose numbers are float64, all programs, all input texts below the allocation limit and all format names", "why_tests_cant": "It is an equivalence over all values, byte sequences and numbers; tests compare single texts.", "anchors": ["edlisp/writer/sexp.go:Write", "edlisp/writer/sexp.go:WriteValue", "edlisp/writer/shell.go:Write", "edlisp/writer/shell.go:valueToShellString", "edlisp/writer/shell.go:valueToToken", "edlisp/writer/json.go:Write", "edlisp/writer/json.go:WriteValue", "edlisp/writer/json.go:valueToJSON", "edlisp/writer/writer.go:NewWriter", "commands/parse.go:runParse"]}
{"id": "C81", "title": "Mistyped command lines, exactly", "statement": "Every command line of every command either says something or is wrong in exactly one way, and rules stated without the parser give the words of the complaint: a flag or letter that does not exist (a letter shown as Go shows characters), two dashes followed by a dash or an equals sign, a flag without its argument, a yes/no flag set to another word, and a list flag whose value is not one record of comma-separated values, with the line and column of the mistake. The first mistake from the left is the one reported. The program then exits with status 1 and neither reads nor writes anything.", "quantifier": "for all argument lists, all flag tables with distinct names and letters (in particular those of the five commands), all flag values", "why_tests_cant": "It is an equivalence over all argument lists and values; tests try single mistakes.", "anchors": ["commands/edit.go:NewEditCommand", "commands/parse.go:NewParseCommand", "commands/test.go:NewTestCommand", "commands/doc.go:NewDocCommand", "commands/mcp.go:NewMCPCommand", "cmd/texted/main.go:main"]}
{"id": "C82", "title": "texted test, exactly", "statement": "A run of texted test is given from its arguments to its exit status by rules that use neither the interpreter nor the parsers: which of the files are run, in which order; for each file the one complaint in its exact words, or none (unreadable file, undecodable document, flaw in the input, unexpected error, error that was expected and is missing or different, nothing to compare, output or result that differs, with both quoted, expected result that cannot be read or is not one expression); the lines of the trace; the lines printed under the flags for quiet runs and for failures only; the three counts; and the exit status, 1 exactly when some test failed or a pattern is none. The runner and the rules agree exactly. Nothing else happens: the file system is as before.", "quantifier": "for all lists of files, all contents of the files, all flags and patterns, all tests whose texts are UTF-8 (as those of XML documents are), all faults of the operating system, all externals that meet ext_ok", "why_tests_cant": "It is an equivalence over all tests and all runs; a test of the runner checks single reports, and the runner is what the other tests rely on.", "anchors": ["commands/test.go:runTests", "commands/test.go:printTestResult", "commands/test.go:createTraceCallback", "commands/test.go:formatInstruction", "edlisp/testing/testing.go:RunTestWithTrace", "edlisp/testing/testing.go:RunTestFileWithTrace", "edlisp/testing/testing.go:ParseTestFile", "edlisp/testing/testing.go:formatValue"]}
{"id": "C83", "title": "The program texted, from its arguments to its exit status", "statement": "One relation describes the program texted end to end, without mention of the code: for any command-line arguments, files and standard input it says what is printed, which files are written, with what error message and exit status the program ends, and when it crashes. It is composed of the grammar of command lines and the words for mistyped ones, the options each command takes from them, the grammar of scripts and the messages for texts that are none, the meaning of scripts, the form in which results are written, the order of reading, backing up and writing files, the test report and the manual. The modelled program can behave in a way exactly if the relation allows that way; where Go's map order is free, exactly the behaviours for some order are allowed. Two parts of it are theorems of their own: texted edit, from its options to the files after it, and texted parse.", "quantifier": "for all arguments that name a command or nothing (not a flag or the library's own help and completion commands), all file systems with any fault behaviour, all standard inputs, all pattern matchers with the contract of regexp (ext_ok), JSON scripts of at most a third of the address space", "why_tests_cant": "every earlier property describes a stage; only the composition shows that no behaviour falls between the stages, for instance a script that is read in another format than the option table says, an error of one stage reported with the words of another, or an exit status 0 after a failure", "anchors": ["cmd/texted/main.go:main", "commands/edit.go:runEdit", "commands/edit.go:runExpressions", "commands/edit.go:processStdin", "commands/edit.go:processFiles", "commands/parse.go:runParse", "commands/test.go:runTests", "commands/doc.go:runDoc"]}
{"id": "C84", "title": "The library functions and the MCP server, exactly", "statement": "For EditFile, EditFileWithFormat, EditFiles and EditFilesWithFormat, for one request to the MCP server and for a whole session of requests, relations that do not mention the code give the result exactly: the answer or error text, what is written to which file in which order, when the process crashes, and when a request is never answered. They use the grammars and the meaning of scripts in place of parser and interpreter. A request with loopUntilError is never answered exactly if every round of edits succeeds; in a session the answers up to a crash are given, and nothing after it.", "quantifier": "for all requests, arguments, prefixes, file systems and fault behaviours, sessions of any length and number of rounds, all pattern matchers with the contract of regexp (ext_ok)", "why_tests_cant": "the answer to a request depends on all files, faults and rounds before it; tests call a handler once on a fresh directory", "anchors": ["texted.go:EditFile", "texted.go:EditFileWithFormat", "texted.go:EditFiles", "texted.go:EditFilesWithFormat", "tools/edit_file.go:EditFileHandler", "tools/edit_file.go:editFilesWithLoop", "tools/texted_eval.go:TextedEvalHandler", "tools/texted_doc.go:TextedDocHandler", "commands/mcp.go:runMCPServer"]}
{"id": "C85", "title": "How large a text a script can make", "statement": "For every command but replace-regexp-in-string, the text and the value after a call together have at most as many bytes as the text and the arguments before it; twice as many for delete-char and buffer-substring, which can copy part of the text, and four times as many for upcase, downcase and capitalize. Only insert, replace-match, replace-region and delete-char ever lengthen the text, the first three by no more than their argument. A program ends, or fails, with a text of at most factor * (input + literals), where the factor is the product of the multipliers of its calls, nested ones included, and memory runs out only if that bound is above the allocation limit. A script using none of the multiplying commands makes a text at most as long as the input and the script together (if the script is UTF-8; three times the script in any case), and never runs out of memory if that fits. The bound is reached: k instructions (insert (buffer-substring 1 -1)) make the text exactly 2^k times as long or run out of memory, so 49 of them exhaust memory on every text but the empty one.", "quantifier": "all programs with any nesting of calls, all texts and states below the allocation limit, all scripts, all matchers with the contract of regexp", "why_tests_cant": "growth is a property of all programs at once and exponential in their length; a test can only measure a few, and cannot run out of memory", "anchors": ["edlisp/eval.go:evalExpression", "edlisp/eval.go:Eval", "edlisp/builtin_insert.go:BuiltinInsert", "edlisp/builtin_delete_char.go:BuiltinDeleteChar", "edlisp/builtin_buffer_substring.go:BuiltinBufferSubstring", "texted.go:ExecuteScript"]}
{"id": "C86", "title": "Replacing everywhere by looping", "statement": "A script that searches forward for s (not empty) and replaces the match by r replaces the first occurrence of s and nothing else, fails with the error text given if there is none, and runs out of memory exactly if the result does not fit. Repeated by edit_file with loopUntilError on one file, it ends after n + 1 rounds exactly if after n replacements, each from the beginning of the text, s no longer occurs; the file then holds the result. If r is shorter than s this always happens, after at most as many rounds as the file has bytes, and one. If r is not empty and has no byte in common with s, the result is what replacing every occurrence in one pass gives. If r contains s and s occurs in the file, the request is never answered: the loop runs for ever if r is s, and otherwise exhausts memory. An empty s ends in the first round with the file as before. In general looping and one pass differ: deleting ab from aabb.", "quantifier": "all texts, all s and r, all scripts that read as the two commands, all files and file names, any number of rounds", "why_tests_cant": "the number of rounds depends on the text and may be infinite; tests try a few replacements on short files", "anchors": ["tools/edit_file.go:editFilesWithLoop", "texted.go:EditFiles", "texted.go:ExecuteScript", "edlisp/builtin_search_forward.go:BuiltinSearchForward", "edlisp/builtin_replace_match.go:BuiltinReplaceMatch"]}
{"id": "C87", "title": "Scripts that are in order before they run", "statement": "Whether every command of a script is given arguments of the documented number and kinds can be decided without running it. A script in order never fails with an error about arguments, names or forms: it fails only when one of the four searches, replace-match or replace-regexp-in-string does not find or cannot use what it was asked for, and every expression gives a value of the kind announced. A script in order that calls none of these six never fails at all, so looping over it until an error never ends with a report. Conversely a script not in order never finishes, on any text, unless it uses the answer of string-match as an argument. Of the 108 worked examples on the documentation pages exactly three are not in order, and these three work on no text. Being in order does not exclude a crash of the Go program.", "quantifier": "all expressions, programs and scripts, all states and inputs, all regular expression engines satisfying the interface", "why_tests_cant": "A test runs one script on one text; that no text at all makes a script fail for its form, or that every text does, is a statement about all runs.", "anchors": ["edlisp/eval.go:Eval", "edlisp/builtin_search_forward.go:BuiltinSearchForward", "edlisp/builtin_replace_match.go:BuiltinReplaceMatch", "edlisp/builtin_string_match.go:BuiltinStringMatch", "tools/edit_file.go:EditFileHandler", "edlisp/documentation.go:FunctionDoc"]}
{"id": "C88", "title": "Scripts that are sure to succeed", "statement": "There is a class of scripts, recognised without running them, that succeed on every text they have room for: every command is given arguments of its signature, none of the six commands that may fail on such arguments is called, none of the four that may crash is called in a way that may crash, and the lengths are bounded. Such a script never fails and never crashes; either it finishes, with a text no longer than the bound computed from the script, or the bound exceeds the memory. A script that copies nothing succeeds whenever the text and three times the script are within the memory. Editing any number of different files with such a script changes them all and nothing else, and the tool reports exactly that. The condition on memory is needed: a script of 49 instructions in the class has too little for every text but the empty one.", "quantifier": "all scripts of the class, all texts, all lists of different files, all worlds without faults, all engines satisfying the interface", "why_tests_cant": "No number of runs shows that a script fails on no text; the claim is about every input of unbounded length and about crashes that only odd texts provoke.", "anchors": ["edlisp/eval.go:Eval", "texted.go:ExecuteScript", "texted.go:EditFiles", "tools/edit_file.go:EditFileHandler"]}
{"id": "C89", "title": "Scripts that may be written differently", "statement": "What comes to the same in every state in which it is reached may be replaced anywhere in a script without changing the text it makes, its failures or its crashes. This covers: a movement right before point is put somewhere is idle; an instruction that only looks is idle; steps and deletions in one direction add up; exchanging point and mark twice, or selecting everything after moving and marking, forgets the first; two texts written one after the other are one text; replacing a region is deleting it and writing there. Going there and back, replacing an empty region, and writing outside the text are not covered, with scripts that show why.", "quantifier": "all programs before and after the replaced part, all states of the editor, all counts and texts, all implementations of the library", "why_tests_cant": "an equation between scripts quantifies over every text, every state and every surrounding script; tests compare two runs on one text", "anchors": ["edlisp/eval.go:Eval", "edlisp/eval.go:Insert", "edlisp/builtin_goto_char.go:BuiltinGotoChar", "edlisp/builtin_forward_char.go:BuiltinForwardChar", "edlisp/builtin_replace_region.go:BuiltinReplaceRegion", "edlisp/builtin_delete_char.go:BuiltinDeleteChar"]}
{"id": "C90", "title": "Two scripts as one", "statement": "If a script s makes t1 of a text t, and a script s' makes t2 of t1, then the one script made of s, a line that goes back to the beginning and sets mark there, and s' makes t2 of t. More exactly, from the state s leaves, s' ends in every case as it would on a fresh buffer (same value, text, point, mark, message, crash), except where s' by itself would fail because it replaces a match before having searched. A file edited twice is then the file edited once. If s does not finish, what follows it does not matter. Without the line between the results differ.", "quantifier": "all scripts s and s', all texts, all implementations of the library, all files on a disk without faults", "why_tests_cant": "no command may depend on anything a previous script left behind except text, point and mark; the last match is hidden state that only replace-match may look at, which must hold for each of the 50 commands on every state", "anchors": ["texted.go:ExecuteScript", "texted.go:EditFile", "edlisp/eval.go:Eval", "edlisp/builtin_replace_match.go:BuiltinReplaceMatch"]}
{"id": "C91", "title": "What a script needs of the Go library", "statement": "What a script does depends on the regular expression engine only if it mentions one of six commands, on the Unicode case tables only if it mentions upcase, downcase or capitalize, on the conversion of numbers that are no 64-bit integers only if it mentions one of the sixteen commands that take numbers, and on the table of printable characters only if it names a command that does not exist. Libraries that agree on what a script needs run it alike, to the value, the buffer and the error. A script that needs none of these makes the same text with every library. Each of the four does matter to some script.", "quantifier": "all pairs of library implementations, all programs, all states; all scripts and texts", "why_tests_cant": "a test runs against one Go release; the claim compares all possible regexp engines, Unicode tables and number conversions", "anchors": ["edlisp/eval.go:Eval", "texted.go:ExecuteScript", "edlisp/builtin_looking_at.go:BuiltinLookingAt", "edlisp/builtin_upcase.go:BuiltinUpcase"]}
{"id": "C92", "title": "Files may be given in any order, in one call or several", "statement": "On a disk that does not fail, editing different files in another order gives every file the same verdict with the same message and leaves the same disk. Whatever the disk does, and even if a file is named twice, one call for two lists of files is a call for the first followed by a call for the second, to the whole state of the world. On a disk that fails, or with two names of one file, the order does matter.", "quantifier": "all lists of files and their permutations, all scripts and formats, all states of the disk, all schedules of faults for the second part", "why_tests_cant": "there are n! orders of n files, and each edit happens on a disk the earlier ones have changed; a test fixes one order and one disk", "anchors": ["texted.go:EditFiles", "texted.go:EditFilesWithFormat", "texted.go:EditFile"]}
