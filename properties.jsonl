{"id": "C01", "title": "Unsigned wire integers survive the trip", "statement": "Any unsigned 64-bit integer the injected client writes in the variable-length wire format is read back by the server as the same integer, the reader consumes exactly the bytes written and nothing after them, and the encoding is between 1 and 10 bytes long, no longer than any other encoding of the same integer that the server reads.", "quantifier": "every 64-bit unsigned integer and every byte string that follows it on the connection", "why_tests_cant": "2^64 values times arbitrary trailing traffic; a unit test samples a few boundary values and cannot rule out a bad carry between groups of seven bits.", "anchors": ["lens/astclient.go: writeVarint", "lens/astsrv.go: readVarint"]}
{"id": "C02", "title": "Signed wire integers survive the trip", "statement": "Any signed 64-bit integer written by the client (zig-zag) is read back as the same signed integer, including the extreme negative value, with trailing bytes untouched.", "quantifier": "every 64-bit signed integer and every following byte string", "why_tests_cant": "The mapping is a bit trick on two's complement words; correctness at every value (incl. both extremes) needs a proof over the whole domain.", "anchors": ["lens/astclient.go: zigzagEncode, writeVarint", "lens/astsrv.go: readSignedVarint"]}
{"id": "C03", "title": "Captured values survive the wire", "statement": "Every tree of captured values (nil, booleans, numbers, strings, packed slices, maps, structs, slices, nested to any depth) that the client can emit within the server's limits is decoded by the server to the same tree of names, types and rendered values, consuming exactly the bytes sent.", "quantifier": "every finite value tree within the configured length limits, and every trailing byte string", "why_tests_cant": "The format is recursive with a dozen tags and length-prefixed containers; tests exercise particular trees, not every nesting of every tag.", "anchors": ["lens/astclient.go: streamField, streamValueSlice, writeString", "lens/astsrv.go: readFields, readValue, readString"]}
{"id": "C04", "title": "Call stacks survive the wire", "statement": "A call stack of up to 2048 frames written through the shared string table is read back frame for frame (file, function, line) in the same order; a longer stack or a frame whose string reference is out of range is rejected with an error rather than misread.", "quantifier": "every list of stack frames with arbitrary (repeated or distinct) strings and every following byte string", "why_tests_cant": "Deduplication through a table makes any off-by-one visible only for particular sharing patterns between frames; the space of sharing patterns is unbounded.", "anchors": ["lens/astclient.go: writeStackFrames", "lens/astsrv.go: readStackFrames"]}
{"id": "C05", "title": "Messages survive the wire and cannot be confused", "statement": "Each of the four message kinds (point, point state, panic, error) produced by the client is decoded by the server's handler of the same kind into the same point id, timestamp, stack and fields / text; a stream of several messages decodes message by message in order. Any other request is answered with 404 away from the four endpoints and 405 for other methods than POST; a body either gives an event of the kind of its endpoint, or none and 400 or a dropped connection.", "quantifier": "every finite sequence of messages with arbitrary contents within the limits", "why_tests_cant": "Framing errors only show up in sequences where the reader of one message over- or under-consumes; tests send one or two fixed messages.", "anchors": ["lens/astclient.go: lensEncodeMessagePoint, lensEncodeMessagePointState, lensEncodeMessagePointPanic, lensEncodeMessageError", "lens/astsrv.go: decodeMessagePoint, decodeMessagePointState, decodeMessagePointPanic, decodeMessageError"]}
{"id": "C06", "title": "A cut-off message is an error, never a different message", "statement": "If the connection is cut at any byte before the end of a message, the server's decoder returns an error; it never returns a successfully decoded message built from the partial bytes. The same holds for messages of any other sender: an accepted message is the first part of what was sent, whatever follows makes no difference, and with anything of it cut off nothing is accepted.", "quantifier": "every message and every strict prefix of its encoding", "why_tests_cant": "There is one test per cut position per message; the property ranges over all messages and all positions.", "anchors": ["lens/astsrv.go: decodeMessagePoint, decodeMessagePointState, readVarint, readString, readStackFrames, readFields"]}
{"id": "C07", "title": "Whatever bytes arrive, an accepted message respects the limits", "statement": "For arbitrary (corrupt or hostile) input bytes, if decoding succeeds then the stack has at most 2048 frames, the string table used was at most twice the frame count, every map / slice container in the decoded fields has at most the configured number of entries, and the bytes consumed are a prefix of the input. Struct containers are the exception: their entry count is not checked.", "quantifier": "every byte string", "why_tests_cant": "Adversarial input space is all byte strings.", "anchors": ["lens/astsrv.go: readStackFrames, readValue, readValueSlice, readVarint"]}
{"id": "C08", "title": "The client only emits what the server accepts", "statement": "For any program state the client snapshots, the message it emits respects the recursion and length limits with which it was generated: texts longer than the limit are cut to the limit with a note of how much is missing, slices and maps are cut to the limit (without a note), nesting deeper than the limit is cut with a marker, and the server configured with the same limit accepts the message and sees the emitted fields. A value within the limits in which no address occurs twice is emitted exactly. The snapshot terminates unless a chain of nothing but pointers and interfaces runs in a circle.", "quantifier": "every heap graph (including shared and cyclic pointers) reachable from the captured variables and every limit setting", "why_tests_cant": "The captured heap is arbitrary user data; tests use hand-written structs.", "anchors": ["lens/astclient.go: streamField, streamValueSlice, limitLensMonitorStringSize", "lens/astsrv.go: readValue"]}
{"id": "C09", "title": "In-memory store behaves as a map", "statement": "After any history of save / delete / clear operations, loading a key returns exactly the last blob saved under it since it was last deleted or cleared (or 'absent'), and listing by prefix returns exactly the live keys with that prefix, each once.", "quantifier": "every finite history of storage operations", "why_tests_cant": "Histories are unbounded; only induction over all histories settles it.", "anchors": ["lens/storage.go: memStorage"]}
{"id": "C10", "title": "Namespaced views of one store do not interfere", "statement": "Two views of one store under distinct namespaces, neither of which extends the other followed by ';', never see, overwrite, list, delete or clear each other's entries, whatever the interleaving of operations; each view on its own behaves as an independent map. In particular the 'before update' and 'after update' result views are independent.", "quantifier": "every interleaved history of operations through both views, every pair of such namespace names and all keys (including keys containing ';')", "why_tests_cant": "Interference would depend on particular key / namespace overlaps in particular histories.", "anchors": ["lens/storage.go: KeyPrefixStorage, prefixStorage"]}
{"id": "C11", "title": "Persistent store returns what was saved, split or not", "statement": "After any history of saves, deletes and clears with ordinary keys (not starting with the reserved split prefix) and non-empty blobs that do not themselves look like a split marker, the persistent store's load and listing agree with a plain map: large blobs are reassembled exactly, an overwrite by a shorter or longer blob leaves no trace of the old one, and deleted blobs leave no residual parts.", "quantifier": "every finite history of operations, every blob size and every split limit", "why_tests_cant": "Stale parts only matter for particular sequences of sizes across overwrites; sizes and sequences are unbounded.", "anchors": ["lens/storage.go: badgerStorage.SaveState, LoadState, DeleteState, ListKeysPrefix, Clear"]}
{"id": "C12", "title": "Split pieces respect the size limit", "statement": "Whenever the persistent store splits a blob, every stored piece is at most the split limit long, no piece is empty, the number of pieces is the least possible, and joining them in index order yields the blob; a blob not longer than the limit is stored whole.", "quantifier": "every blob length and every positive limit", "why_tests_cant": "The piece boundaries are computed with integer division; the claim is arithmetic over all lengths.", "anchors": ["lens/storage.go: badgerStorage.SaveState"]}
{"id": "C13", "title": "A load concurrent with saves never mixes two versions of a blob", "statement": "A load that runs concurrently with saves and deletes of the same key never panics and never joins pieces of different blobs. It returns either an error or exactly one of the blobs (or the absence) current at some moment during the load, provided all over-limit blobs saved under that key have the same length; without that proviso it may return the later blob cut or zero-padded to the length of the earlier one, and the proof exhibits such an execution.", "quantifier": "every interleaving of one load with any number of saves to the same key", "why_tests_cant": "The window between reading the marker and reading the parts is a scheduling race that tests practically never hit.", "anchors": ["lens/storage.go: badgerStorage.LoadState, SaveState"]}
{"id": "C14", "title": "Flattened field paths identify fields", "statement": "Flattening a captured-value tree lists every leaf (childless) field exactly once under the dot-joined path of its names with its own value, and distinct leaves get distinct paths, provided field names are non-empty and contain no dot; without that proviso two leaves can collide.", "quantifier": "every value tree of any shape and depth", "why_tests_cant": "Collisions depend on particular names at different depths.", "anchors": ["lens/types.go: FieldValues.FlattenFieldValues"]}
{"id": "C15", "title": "Saved test results load back unchanged", "statement": "Encoding a test result with its shared dictionaries of field trees and stack frames and decoding it gives back the same result (up to empty vs. absent maps), whenever the identifiers used for sharing do not confuse two different trees or frames occurring in it; and a concrete pair of different trees with the same identifier shows that the proviso is needed. Decoding succeeds on exactly the stored results in which every dictionary reference has a meaning, and yields that meaning; every other input is rejected. The table of stacks has no stack twice and only stacks of at least two frames; a frame with such a stack refers to the table and has no stack itself, every other frame has its stack. A value of at most four bytes with nothing below it is written where it stands, unless it has the identifier of another kind of value. The tables of maps and values have no more entries than identifiers that are counted at least twice.", "quantifier": "every test result with arbitrarily many calls, panics, stacks and field trees, in any sharing pattern", "why_tests_cant": "Dictionary sharing goes wrong only for particular combinations of trees within one result.", "anchors": ["lens/types.go: TestResult.MarshalMsgpack, UnmarshalMsgpack, FieldValues.ID, StackFrame.ID"]}
{"id": "C16", "title": "Field identifiers do not depend on map order", "statement": "The identifier computed for a set of captured fields depends only on the set (names, values, children), not on the order in which the Go map yields its entries. What is hashed is the same for two sets of fields exactly when the walks over their sorted names give the same names and leaf values (the depth of the names and the values of inner nodes do not count); for sets of fields of one shape, equal identifiers mean equal leaves at every path, unless the hash collides on the two. Keys are at most 20 bytes long (short identifiers stand for themselves), nil, empty and filled maps get different identifiers, and, barring hash collisions, the identifier of a stack frame determines the frame for files ending in .go and functions whose name neither contains .go nor starts with a digit (and does not in general).", "quantifier": "every field tree and every iteration order at every level", "why_tests_cant": "Go map order is random per run, the number of orders is factorial.", "anchors": ["lens/types.go: FieldValues.ID, FieldValue.ID"]}
{"id": "C17", "title": "Bounded worker group never exceeds its limit and joins everyone", "statement": "At every point of every execution at most `limit` workers started through the group are running, every started worker eventually can run, and a wait that returns does so only in a state with no worker of the group still active.", "quantifier": "every limit, every number of workers and every interleaving of their steps", "why_tests_cant": "Concurrency: schedules are unbounded and not controllable from a test.", "anchors": ["lens/util.go: LimitingWaitGroup"]}
{"id": "C18", "title": "Same key, same lock", "statement": "Two critical sections entered with the same key through the striped lock never overlap in time, whatever other keys are being locked and however the hash distributes them.", "quantifier": "every hash function, every number of stripes, every number of threads and every interleaving", "why_tests_cant": "Interleavings and hash distributions are unbounded.", "anchors": ["lens/util.go: stripedMutex"]}
{"id": "C19", "title": "Log tail buffer is always a true tail", "statement": "At every moment the rolling buffer's contents are either everything written so far, or '...' followed by a suffix of everything written so far; its size never exceeds the limit plus the small fixed slack of a tiny limit, and a Write always reports full success.", "quantifier": "every limit and every sequence of writes of any sizes", "why_tests_cant": "Trimming interacts with the history of earlier trims; sequences are unbounded.", "anchors": ["lens/util_io.go: limitedRollingBuffer"]}
{"id": "C20", "title": "Tee writer delivers the same bytes to every sink", "statement": "One tee write hands the whole input to every sink once and in order. If it reports success then no sink failed and all sinks answered the same count; with sinks that keep to the io.Writer contract (a short write comes with an error) that count is the length of the input, so every sink took everything. If any sink fails the write reports an error. Sinks that are all equally short without an error go unnoticed, and a tee of no writers panics.", "quantifier": "every number of sinks, every sink behaviour and every sequence of writes", "why_tests_cant": "Sinks may fail at any call in any combination.", "anchors": ["lens/util_io.go: TeeWriter, teeWriter"]}
{"id": "C21", "title": "Child process environment is safe and overridable", "statement": "In the environment passed to child go commands no malformed entry and no dynamic-loader (LD_*) entry of the parent survives, every custom entry is present in order at the end, no parent entry with an overridden key remains, and every other parent entry is kept in order.", "quantifier": "every parent environment and every list of custom entries", "why_tests_cant": "Environments are arbitrary lists of arbitrary strings.", "anchors": ["lens/exec.go: mergeSafeEnv"]}
{"id": "C22", "title": "Containment test for paths is exact on clean paths", "statement": "For clean absolute paths, the within-directory check answers yes exactly when the file is the directory or below it, except that it wrongly answers no for direct children whose name begins with two dots; it never answers yes for a path outside the directory.", "quantifier": "every pair of clean absolute paths", "why_tests_cant": "Paths are arbitrary; escape via '..' segments is a classic missed corner case.", "anchors": ["lens/file.go: fileWithinDir"]}
{"id": "C23", "title": "Module differences between two go.mod files are exact", "statement": "Comparing an old and a new module file yields exactly the modules required by both whose versions differ, each with its old and new version, in the order of the new file; modules only added or only removed are never reported.", "quantifier": "every pair of requirement lists, with duplicates", "why_tests_cant": "Arbitrary lists.", "anchors": ["lens/module.go: DiffModulesFromGoModFiles"]}
{"id": "C24", "title": "Transitive module analysis terminates and covers each module once", "statement": "Starting from a list of module changes, the analysis of transitive dependency updates terminates on every dependency graph including cyclic ones, analyses every module reachable through changed dependencies, each module name at most once, and never analyses an unchanged or unreachable one; when the starting list names each module at most once, every analysed module's changes are in the result.", "quantifier": "every finite dependency graph (cyclic or not) and every starting list", "why_tests_cant": "Graph shapes are unbounded; termination on cycles and losing results on duplicated starts are whole-graph properties.", "anchors": ["lens/module.go: AnalyzeModuleChanges, analyzeModuleChangesInternal"]}
{"id": "C25", "title": "Changed-line bitmap marks exactly the changed lines", "statement": "The bitmap computed for a changed function has one bit per line of the definition; for the old definition a bit is set exactly when the line lies in a replaced or deleted block or within the configured radius of an insertion point, for the new one correspondingly, every unmarked line of the old definition occurs unchanged and in order in the new one; with radius 0 a pure insertion marks nothing in the old definition.", "quantifier": "every pair of definitions, every valid edit script and every radius", "why_tests_cant": "Edit scripts are arbitrary; radius windows interact with block boundaries and file ends.", "anchors": ["lens/module.go: computeChangeLineBitmap"]}
{"id": "C26", "title": "Lowest and highest dependency versions are recorded", "statement": "For each module mentioned in a project's dependency output, the recorded range's ends are versions that really occur for it and no occurring version lies outside the range.", "quantifier": "every list of dependency lines in any order", "why_tests_cant": "Order and duplication of the lines are arbitrary.", "anchors": ["lens/module.go: parseProjectDeps"]}
{"id": "C27", "title": "Go-version comparison is a total order on release versions", "statement": "Comparing version strings is a total preorder on all strings. A string is a version exactly if it follows the grammar of semantic versions with a leading v (minor and patch may be left out); of two versions the lower one is that of the semantic-versioning rules (numbers by value, pre-release below its release, identifiers one by one, numeric ones below textual ones, shorter lists first, build data ignored); other strings are equal to each other and below all versions. On release versions (one to three numbers separated by dots) this compares numerically component by component with missing components as zero; the older of two versions is one of them and at most both, an empty one being no constraint; functions are left out of coverage exactly when their module names a version below 1.13, the rest stay in order and the count is right. Go's own pre-release strings such as 1.22rc1 are not semantic versions and are treated as older than everything.", "quantifier": "every string, every pair (triple for transitivity) of version strings", "why_tests_cant": "Number sizes and component counts are unbounded.", "anchors": ["lens/module.go: compareGoVersions, olderGoVersion", "lens/astexec.go: FilterModulesByGoVersion", "lens/asttweak.go: IsGoVersionBelowMinimum"]}
{"id": "C28", "title": "Caller search visits exactly the callers", "statement": "Searching the call graph backwards from a changed function visits each function at most once and visits exactly those functions from which the changed function can be reached by calls without passing through another entry root, and terminates on recursive and mutually recursive programs.", "quantifier": "every finite call graph (with cycles), every start node and every set of roots", "why_tests_cant": "Graphs are unbounded; missing one caller silently drops tests.", "anchors": ["lens/static.go: reverseDFS, CallerStaticAnalysis"]}
{"id": "C29", "title": "Merging return points loses and invents none", "statement": "Merging return points gives, whatever the unstable sort does with equal lines and although the result shares its array with the input, a list strictly increasing in line number in which each line carries the 32-bit sum of the counts of the input and no other lines appear; a function's return points are the lines of exactly its own returns (and SSA exit instructions), and it counts as ending in a panic exactly when it has results, no written return and a panic.", "quantifier": "every list of return points with arbitrary duplication and order", "why_tests_cant": "Arbitrary lists with arbitrary duplicates, 32-bit arithmetic.", "anchors": ["lens/static.go: mergeReturnInfos"]}
{"id": "C30", "title": "Test entry points are recognised exactly as the go tool does", "statement": "Every test the go tool would run whose parameter type is written without an alias is recognised as a test entry point, and what is recognised is exactly a declared function of a test file with a name starting in 'Test' and the single parameter *testing.T; that includes methods and names going on in lower case, which the go tool does not run, and excludes aliased parameter types, which it does.", "quantifier": "every function name and signature", "why_tests_cant": "All strings.", "anchors": ["lens/static.go: isGoTestFunction, isMainFunction, isInitFunction"]}
{"id": "C31", "title": "Monitor point ids are unique under concurrency", "statement": "However many goroutines insert monitoring points at once, no two successful allocations return the same id, no id is zero, and after the id space is used up every further allocation is refused rather than wrapping.", "quantifier": "every number of threads and every interleaving of their atomic steps", "why_tests_cant": "Compare-and-swap interleavings.", "anchors": ["lens/asttweak.go: ASTModifier.nextPointId"]}
{"id": "C32", "title": "Field filter keeps only values stable across runs", "statement": "The fields reported for a test after repeated runs are exactly those present with the same value in every run at the corresponding call (same call site, same occurrence in time order), nested fields included; taking the other run first gives the same calls and fields per call site, filtering again with an already seen run changes nothing, and a test failing in any run is recorded as failed. In the run after the update the recorded top-level fields are exactly those the corresponding earlier call kept.", "quantifier": "every number of runs, every list of calls per run and every field tree", "why_tests_cant": "Runs differ nondeterministically; the space of result pairs is unbounded.", "anchors": ["lens/astexec.go: testResultStableFields, stableFieldValues, applyStableFilter"]}
{"id": "C33", "title": "Panics kept are those seen in every run", "statement": "The panics retained after two runs are exactly the multiset intersection of the panics of the two runs.", "quantifier": "every pair of panic lists, with repetitions in any order", "why_tests_cant": "Multiset bookkeeping with repeated equal panics.", "anchors": ["lens/astexec.go: intersectPanics"]}
{"id": "C34", "title": "Oversized captured values are bounded but still comparable", "statement": "Every stored value of a type other than string is at most the fixed size bound (given a digest text of at most 122 bytes), values within the bound are stored verbatim, equal captured values always get equal stored values, and unequal long values get unequal stored values unless the digest collides. String values are stored without any bound, and a short value that spells a digest text cannot be told from a long one.", "quantifier": "every captured value of every length", "why_tests_cant": "All strings; depends on the digest only through collision freeness.", "anchors": ["lens/astexec.go: collectFields"]}
{"id": "C35", "title": "Monitor accounting completes", "statement": "Every execution of the monitor ends and leaves every message handled: each state message of a known point is recorded exactly once and where its point belongs (a point of the extension with the extension's frames, any other with its caller's), as a frame with the message's stack, fields and time in rounded milliseconds, those of one connection for one function in the order sent; the points reached are counted once each and the changes reached listed in order; and the counter collecting waits for equals the messages in progress, so a collected result contains every answered request; a state message for an unknown point id leaves the counter open forever, and requests not yet received are not waited for.", "quantifier": "every finite sequence of messages and every order of their asynchronous processing", "why_tests_cant": "Asynchronous processing order is not controllable in a test; a hang is a liveness failure.", "anchors": ["lens/astexec.go: HandleFuncPointState, makeTestResult"]}
{"id": "C36", "title": "Project go.mod and go.sum are put back", "statement": "After an update run, on success or failure at any step and whatever the commands do to other files, the project's regular go.mod files and (where they existed) go.sum files have their original contents and, unless making the backups failed, no backup remains, provided the renames used for restoring succeed; if they fail the original is still in the file or its backup. In between, in every module directory every \"go get\" and then \"go mod tidy\" runs, in order, up to the first failure, which fails the run; the second test run follows exactly when all succeeded. Not restored: a go.sum that did not exist before, linked go.mod files, file modes; a user's own go.mod.bkp is destroyed.", "quantifier": "every sequence of step failures and every effect of the go commands on the two files", "why_tests_cant": "Each step can fail; combinations multiply.", "anchors": ["lens/astexec.go: RunModuleUpdateAnalysis"]}
{"id": "C37", "title": "Source edits are undone", "statement": "A commit without an error has written every pending text to its file; after any sequence of edits, commits (also failing ones), injections and restores, restoring returns every path of the file system to what it held, provided edited files are regular, no stale backup existed and no backup copy or client file stopped half way; even if restoring fails the original is in the file or its backup. A failed commit leaves everything pending. A stale backup, a half-made backup followed by another commit, a linked source, a half-made injection and a failed restore each break this.", "quantifier": "every set of files and every sequence of edits, commits and injections", "why_tests_cant": "Sequences of edits over several files are unbounded.", "anchors": ["lens/asttweak.go: ASTModifier.Restore, Commit, CommitFile, InjectASTClient, backupOrigFile"]}
{"id": "C38", "title": "Instrumentation batches cover every function exactly once", "statement": "Distributing the functions to instrument over concurrent batches puts every function into exactly one batch and all functions of one file into the same batch, injects the client exactly once into each of their directories, and whatever order the batches finish in, the collected tables name exactly the inserted point ids with their functions, for callers and for changed functions of modules; a batch fails exactly when injecting into one of its functions is an error or its file cannot be written.", "quantifier": "every list of functions over any files and any batch limits", "why_tests_cant": "Arbitrary lists.", "anchors": ["lens/astexec.go: injectMonitorPoints"]}
{"id": "C39", "title": "Stack identity ignores line numbers only", "statement": "Two stacks are treated as the same call site exactly when their project frames agree in file and function frame by frame, whatever the line numbers (for names without the two separator characters).", "quantifier": "every pair of stacks", "why_tests_cant": "All pairs of lists of strings.", "anchors": ["lens/astexec.go: StackFramesKey, ProjectFrames"]}
{"id": "C40", "title": "Value diff is empty exactly for equal values", "statement": "Two values are reported as equal exactly when they are equal, and of values stored by digest only a bounded text is shown. False: the reported text tells different pairs of values apart.", "quantifier": "every pair of strings", "why_tests_cant": "All pairs of strings.", "anchors": ["lens/engine.go: DiffValues"]}
{"id": "C41", "title": "Comparison of before and after is sound and complete on common calls", "statement": "Calls of a caller before and after are matched one to one by stack key and order; a field difference is reported exactly for fields present with different values in a matched pair (the last such pair gives the text); the counts of same and different fields are exact, panics count by multiset difference, and zero differences means exactly that every earlier field is found unchanged in its matched call and panics agree; identical results give an empty report; a regression is exactly pass-then-fail, and the report keeps of both runs the name, outcome and number of changed functions hit; reported time changes are real and time changes are not missed. False: additions after the update are reported; the kept time change is the most significant; tests lost after the update are noticed.", "quantifier": "every pair of result sets with any number of tests, calls, stacks and fields", "why_tests_cant": "Matching by stack and position is a combinatorial alignment over unbounded inputs.", "anchors": ["lens/engine.go: CompareTestResults"]}
{"id": "C42", "title": "The run protocol of the engine", "statement": "In every run, whatever stage fails: each successful call is undone exactly once (temporary copy, storage, provider cleanup), after all the work and newest first; stages happen in order, each only after success of the one before; the first failing call ends the work; at most one report is written and the run's result is that of the report; tests are executed exactly when modules, changes, callers and tests were found and the storage opened; mutation testing happens exactly when tests were executed and it was requested, with the requested modes; the final report has the providers' numbers. False: a failed execution is cleaned up; early reports have the number of changed functions; success means a report was written.", "quantifier": "every combination of configuration and of success / failure of each provider call", "why_tests_cant": "Each of a dozen provider calls can fail; all combinations and their effects on the trace.", "anchors": ["lens/engine.go: AnalysisEngine.Run"]}
{"id": "C43", "title": "Invalid configurations are rejected, valid ones accepted", "statement": "A configuration is accepted exactly when it was not prepared before, the project and a target / go.mod / go.work are given (not both of the latter), every target is a module with version, the numeric options lie in their ranges, the modes are documented words and the files pass their checks; after acceptance the targets are those given, in order, nothing else is changed, and it is not accepted again. False: the chart path is always checked; a corrected configuration has its targets once.", "quantifier": "every configuration", "why_tests_cant": "All combinations of option values.", "anchors": ["lens/engine.go: Config.Prepare"]}
{"id": "C44", "title": "Module targets are parsed losslessly", "statement": "A target is accepted exactly when it is a non-empty name with a slash or dot, the first '@' and a non-empty version; the parts are exactly those, so printing them with '@' gives the target.", "quantifier": "every string", "why_tests_cant": "All strings.", "anchors": ["lens/engine.go: parseTargetModule"]}
{"id": "C45", "title": "Report tables are bounded and consistently ordered", "statement": "The risk table shows at most ten rows, one for each of the highest-ranked tests at risk (now failing, or with changed fields), in order: not generated first, then newly failing, then more changed fields; no test left out ranks before one shown; the comparison is an order and its last criterion never applies. False: the table is determined by the results (ties and map order); 'more field differences' counts fields.", "quantifier": "every list of test reports", "why_tests_cant": "All lists; sorting with a comparator is only right if it is an order.", "anchors": ["lens/report.go: risky table"]}
{"id": "C46", "title": "Root module of a report is well chosen", "statement": "The report names as root the only changed module, or else the only direct one, and otherwise none. False: a direct module listed twice is still named.", "quantifier": "every list of module changes", "why_tests_cant": "All lists.", "anchors": ["lens/report.go: rootModule"]}
{"id": "C47", "title": "Inserting lines never loses source", "statement": "Inserting comment lines into a function keeps every original source line, unchanged and in order; an inserted line stands directly above a line of the body (between the braces) on which a token other than a comment, a bracket or a literal reaching over a line end starts, at most one above each, with the text the callback gave for the line number relative to the function and until it stopped. False: lines holding only brackets are not marked (the scanner adds a semicolon); no line is inserted inside a multi-line literal.", "quantifier": "every file, function position, set of code lines and insertion callback (including early stop)", "why_tests_cant": "All files and callbacks.", "anchors": ["lens/asttweak.go: InsertFuncLines"]}
{"id": "C48", "title": "Return instrumentation does not change results", "statement": "For every function body of the modelled statement language, every behaviour of the user code and every start state, a call of the instrumented function is - its state messages removed - a call of the original with the same results or panic, events and final state, and every behaviour of the original under the reading order the added code fixes is kept. A call sends at most one message: a visited return exactly one, last before the deferred calls, with its own point id, all visible variables and all results; a panic and a return inside a labelled statement, a select or the else of an else-if none; falling off the end one exactly if no return is visited.", "quantifier": "every function body and signature of the modelled language, every meaning of its operations, every order of reading variables that includes the one of the added code, every start state", "why_tests_cant": "Program equivalence over all programs and inputs.", "anchors": ["lens/asttweak.go: InjectFuncPointReturnStates, buildReturnInstrumentation, buildImplicitReturnInstrumentation"]}
{"id": "C49", "title": "Call instrumentation preserves behaviour where the call is evaluated first", "statement": "For every body in which each reported call is evaluated first in its statement, has pure selections and a receiver that may be copied, and every meaning of its operations, each run of the instrumented function is a run of the original with the same effects, results, panic and final state, in which the message of every reported call comes directly before it and shows the values the call gets, and no other message is sent; every run of the original in which names and selections are read after the calls among the operands is kept. Of the calls in a statement the last outermost one outside function literals is chosen. Behind short-circuit operators, behind other operations, in loop conditions, in defer statements, for receivers that must not be copied and for selections with effects the behaviour changes, shown by concrete programs. A receiver with the name of an imported package is not told.", "quantifier": "every body of the modelled language, every meaning of its operations, every permitted reading order, every start state", "why_tests_cant": "Program equivalence over all programs.", "anchors": ["lens/asttweak.go: InjectFuncPointBeforeCall, buildCallInstrumentationWithArgs"]}
{"id": "C50", "title": "Mutation scores are well formed", "statement": "For every file the tests entered are exactly those reaching a changed function in it, each once, and the -run expression of the script lists exactly them; the functions taking part are all changed ones or, with line scope, those with a marked line, their files are given each once, the tool is not run when there are none, and with line scope the directive against mutation stands above exactly the code lines of the body whose bitmap entry says unchanged. A summary line is read as it stands and the reported part is at most the total. False: that only changed functions are mutated (--match is not anchored), that changed lines are left to mutation (bitmap entries count lines of the printed definition, not of the source), and that SquashedCount is the number of mutants the tests noticed (it is that of the survivors).", "quantifier": "every set of functions, tests and tool outputs", "why_tests_cant": "All combinations of functions, tests and parsed outputs.", "anchors": ["lens/mutation.go: RunMutationTesting"]}
{"id": "C51", "title": "Limiting a text keeps whole lines", "statement": "Limiting a text to a positive number of lines keeps exactly the first (or last) that many lines of it, whole and in order, or the text itself when it has no more lines than that.", "quantifier": "every text, every positive count, either end", "why_tests_cant": "Texts with arbitrary newlines, including trailing ones and empty lines.", "anchors": ["lens/util.go: limitStringLines"]}
{"id": "C52", "title": "Changed functions of a module are found exactly", "statement": "The functions reported as changed for a module update are exactly those present under the same identifier in the corresponding package of both versions with different definitions; when several declarations share an identifier (several init functions) only the last one counts.", "quantifier": "every pair of loaded versions with any packages and functions", "why_tests_cant": "Arbitrary package contents; identifier collisions only occur in rare sources.", "anchors": ["lens/module.go: analyzeModuleChange"]}
{"id": "C53", "title": "Workspace differences and requirement lookup", "statement": "The differences of two workspaces are exactly those of every directory that is a module in both; looking a module up over several module files returns the first requirement of the first file that requires it with a version.", "quantifier": "every pair of workspaces, every list of module files", "why_tests_cant": "Arbitrary lists.", "anchors": ["lens/module.go: DiffModulesFromGoWorkFiles, FindModuleVersionInProject"]}
{"id": "C54", "title": "Function identifiers and the exported call graph", "statement": "Two functions with different package, receiver or name have different identifiers; the exported call graph has an entry for exactly the supported functions, each listing exactly the identifiers of the functions it calls when identifiers are not shared; generated files are recognised by exactly seven name endings.", "quantifier": "every package, receiver and function name; every finite call graph; every file name", "why_tests_cant": "All strings and all graphs.", "anchors": ["lens/static.go: makeFunctionIdentStr, MakeFunctionIdent, extractCallGraphEdges, IsGeneratedFile"]}
{"id": "C55", "title": "Stack file names tell project code apart", "statement": "A file inside the project is recorded as \"./\" followed by its path below the project and no other file's recorded name starts with \"./\", so a frame counts as a project frame exactly when its file is inside the project and not below its vendor directory. A file outside the project is recorded by what follows the first /pkg/mod/ in its path, else by its path, each without the Go path in front of it when it lies below that. Shortening never fails for a Go path given in clean form.", "quantifier": "every project directory, Go path and absolute file path", "why_tests_cant": "All paths, with dot elements, repeated separators and names beginning with dots.", "anchors": ["lens/astexec.go: trimStackFile, ProjectFrames"]}
{"id": "C56", "title": "The modules a run looks at are those asked for", "statement": "With targets given, the modules looked at are exactly the targets the project requires, in the order given, from the project's version to the version given, and an error is returned exactly when a lookup fails; without targets the go.mod (single-module projects only) or go.work comparison is used. False: a target the project does not require is refused (it is skipped).", "quantifier": "every configuration, number of go.mod files and outcome of version lookups", "why_tests_cant": "All combinations of options and lookups.", "anchors": ["lens/engine.go: parseInitialModules"]}
{"id": "C57", "title": "The temporary copy is complete and the original untouched", "statement": "After a successful set-up of the temporary environment every path outside it is as before, the places used lie below it, project and GOPATH have the same nodes and contents as the originals, and the module cache too when it is outside GOPATH or at GOPATH/pkg/mod. False: a module cache elsewhere inside GOPATH is copied to where it is looked for; a project given by a symlink is copied; file modes are kept.", "quantifier": "every file system, configuration of paths and outcome of the copies", "why_tests_cant": "All directory trees and layouts.", "anchors": ["lens/engine.go: setupTempEnvironment", "lens/file.go: CopyDir", "lens/file.go: CopyFile"]}
{"id": "C58", "title": "Charts drawn from a JSON report show what the run showed", "statement": "Rebuilding the test reports from the details and time changes of a report gives the same rows of the risk table and, when no two tests of the same identifier have time changes, the same total times. False without that condition.", "quantifier": "every list of test reports, order of time changes and order of rebuilt reports", "why_tests_cant": "All reports and all map orders.", "anchors": ["lens/report.go: PrepareReportData", "lens/report.go: RenderReportChartsFromJson"]}
{"id": "C59", "title": "The identifier lists of a report are exact", "statement": "The lists of project functions and reachable changed functions are sorted, without repetition, contain exactly the given ones, and do not depend on the order callers come in; the test list is a sorted rearrangement of the tests given.", "quantifier": "every list of callers and tests", "why_tests_cant": "All lists and map orders.", "anchors": ["lens/report.go: PrepareReportData"]}
{"id": "C60", "title": "The mutation script leaves the sources as they were", "statement": "When the script run for a mutant ends and its final move worked, every file is as before it, provided no file of the backup's name existed; if the move back fails the original is still there under the backup's name; the exit code is 0 exactly when the tests failed and 1 exactly when they passed. False without the proviso: an existing .mbkp file is lost.", "quantifier": "every file system, file, mutant and outcome of each step", "why_tests_cant": "Failing moves and copies at every step cannot be provoked in a test.", "anchors": ["lens/mutation.go: buildExecSelectTestsScript", "lens/mutation.go: buildExecAllTestsScript", "lens/mutation.go: scriptFinishCheck"]}
{"id": "C61", "title": "Names recorded at a return are the names in scope there", "statement": "For every function declaration and every return statement of it outside select statements and function literals, visibleDeclsBefore gives, in order of position, exactly the names in scope at the return (Go's block scopes) with the innermost declaration of each, leaving out the blank name and the receiver. Where the body has no return the same holds at its end, provided the last statement does not end right at the closing brace; without that it is false: a name of an inner block is given that is not in scope.", "quantifier": "all syntax trees with the positions of a parsed file, all returns, all orders of the map", "why_tests_cant": "A test has a few hand-written functions; shadowing, nested clauses, else-chains, function literals and unformatted sources combine without bound, and a wrong name makes the instrumented program fail to compile.", "anchors": ["lens/asttweak.go:1226-1302", "lens/asttweak.go:556-640"]}
{"id": "C62", "title": "Tests share the servers without mixing, losing or double counting", "statement": "For every interleaving of the test goroutines: a server is with at most one test, is never at the same time in the channel, and all are back in the channel when the loop returns; a message that arrives while the process that sent it runs is recorded by the handler of that very run; the first test runs alone; the loop returns after at most ten steps per test and never gets stuck; it returns no error exactly when every test was run to its end, and then the total of checks is the sum over the tests (the smaller of two runs), the functions reached are those of all first runs, each test was run twice, or once exactly where results from before the update were found and no second run is forced, and its result is stored under its identifier. A message arriving late is recorded by whichever test has the server.", "quantifier": "all numbers of tests and servers, all outcomes of test processes and storage, all interleavings", "why_tests_cant": "A test sees a few schedules of a few tests; a race over servers, totals or results shows in rare interleavings only.", "anchors": ["lens/astexec.go:184-299", "lens/astexec.go:520-566", "lens/astexec.go:75-95", "lens/astsrv.go:113-116"]}
{"id": "C63", "title": "The entries sent of a large map do not depend on iteration order", "statement": "For keys of one type without NaNs whose dynamic types have distinct printed names, the comparison of map keys never panics, is a total order (swapping the keys swaps the answer, it is transitive, and only keys equal in Go compare as equal), so it meets the contract of sort.Slice; for a map with more entries than the limit the keys sent are then the same, in the same order, for every order in which Go hands out the keys and every sorting function, exactly as many as the limit, and each is below each key left out. It is false with NaN keys, with types of one printed name, and across runs for pointer keys.", "quantifier": "all key types (nested arrays, structs, interfaces), all key sets, all permutations, all sorting functions", "why_tests_cant": "Iteration orders and key combinations are unbounded; an order that is not transitive shows as different reports only for some inputs and sort sizes.", "anchors": ["lens/astclient.go:519-642", "lens/astclient.go:365-378"]}
{"id": "C64", "title": "The modules of a workspace are the ones its work file designates", "statement": "For an absolute project directory the go.mod files found are, sorted and without repetitions, exactly the existing go.mod of the project directory and of each directory designated by a use directive (a plain path, a glob pattern, or a tree written with dots), each by its one clean text; it fails exactly when neither go.mod nor go.work exists or the work file or an entry cannot be read; the test patterns name one for one the trees of these modules, the patterns of the call graph loader exactly the trees designated, so all that is tested is loaded. It is false for absolute entries with dots, which are looked for below the project; directories found through dots are compared with themselves in a workspace diff; and a designated directory without go.mod is not tested but loaded.", "quantifier": "all project paths, work files and file systems (existence, globbing and walking are arbitrary functions)", "why_tests_cant": "Spellings of paths with dots, repeated slashes and steps outside the project are unbounded; a test has one directory layout.", "anchors": ["lens/module.go:325-416", "lens/module.go:506-565", "lens/module.go:585-610", "lens/static.go:305-326"]}
{"id": "C65", "title": "The call graph covers exactly the packages that are reachable with type information", "statement": "Loading a project creates, for each package that a loaded package imports through packages with type information, exactly one package of the program, in whatever order imports are iterated; the module packages are exactly those of them that were not loaded themselves, each once; loading ends on cyclic imports too. It is an error exactly when the loader fails or reports errors, and no result at all when nothing was loaded. What is imported only through a package without type information is not covered.", "quantifier": "all finite import graphs closed under imports whose packages have types of their own, all orders of imports", "why_tests_cant": "Go iterates the imports of a package in random order and tests have a handful of packages; that nothing reachable is missed for any graph is a claim about the traversal itself.", "anchors": ["lens/static.go:327-379"]}
{"id": "C66", "title": "Panic, entry and finish points change no run of a function", "statement": "A panic point leaves every run of the function as it was, whatever the body does and defers, and sends exactly one message, after everything else, with the value of the panic, exactly when the function is left by a panic; an entry point sends one message first, a finish point one last, however the function is left; the callers have the same runs up to messages. However many statements of a function ask for a panic, at most one is given it. The point goes into the last function of that name in the file and nowhere else, and errors leave the file alone. It is false for a nil panic (modules for Go before 1.21), which the point stops silently, and for two functions of the same name in a file (init), of which the last gets the points of both.", "quantifier": "all function bodies and deferred functions (given by their runs, with recover, Goexit and panics while unwinding), all files, names and ids", "why_tests_cant": "The interplay of the inserted defer with arbitrary deferred functions that recover, panic again or exit the goroutine has unboundedly many shapes; tests exercise a few.", "anchors": ["lens/asttweak.go:417-441", "lens/asttweak.go:455-506", "lens/asttweak.go:1829-1863", "lens/astclient.go:121-136"]}
{"id": "C67", "title": "The mutation scripts hand over exactly the files, tests and packages meant", "statement": "If no path, test name or package has a quote, backquote, dollar sign or backslash, bash reads from the script for selected tests exactly the packages and, for each file, its tests, and for other files none; that script moves and copies exactly the files meant, whatever they are called. go test is given exactly the packages, whatever files exist, exactly when each package is one word (not empty, no blanks, no pattern characters); the script for all tests moves the file meant exactly when its path is one word. Formatting the template of that script leaves no verb and puts the packages in once. The commands that move, put back, copy and test are the lines of the two texts as bash reads them, and there are no others of the kind. It is false that quoting protects every path: a command substitution or backquotes in a path are run, a quote ends the text, two backslashes become one.", "quantifier": "all maps from files to tests, all packages, paths and results of file name expansion", "why_tests_cant": "Paths are arbitrary bytes and shell quoting has many cases; tests use directories with harmless names.", "anchors": ["lens/mutation.go:200-331"]}
{"id": "C68", "title": "The injected client is the template in the right package with the given numbers", "statement": "The package of a directory is found exactly when its .go entries can be looked at and the files go would build, at least one, parse and are all of that package; test files are never looked into. In the client written there the port, the recursion depth and the length limit are exactly the numbers given, with the types they had; the host and every other constant and variable keep their meaning, and the second file changes only its package. In any group of constants with an expression for every name, and in any variable declaration, the names given get the literal and all others keep type, expression and iota. It is false for a directory of test files only, for a constant whose expression the next spec repeats, and for a variable declared beside another without expressions.", "quantifier": "all directory listings, all constant and variable groups and replacement maps, all package names and (also negative) numbers", "why_tests_cant": "Directory contents and declaration shapes are unbounded; tests use one template and a directory or two.", "anchors": ["lens/asttweak.go:208-383"]}
{"id": "C69", "title": "The messages of a test go to the server of that test", "statement": "Whatever the environment of the analysing process holds (also a LENS_MONITOR_PORT of its own) and whatever port is compiled in, a process started for a test sends each message to the address of the server given to the test, at the path of its kind; no two servers have one address, there are at most 64, at most one per test and at least one if there are tests. The stack in a message is never empty, has at most 2048 frames and these are the innermost ones. A message makes one request if answered with a status below 300, else exactly one more, to the error endpoint; a message within the limits is accepted by the server with the first. It is false for a process started with an emptied environment, which reports to port 0.", "quantifier": "all environments, paths, first ports, numbers of processors and tests, stacks, messages and network answers", "why_tests_cant": "Environments and interleavings of several servers are unbounded; a test sees one port.", "anchors": ["lens/astclient.go:44-59", "lens/astclient.go:137-195", "lens/astsrv.go:72-90", "lens/astexec.go:75-95", "lens/astexec.go:243", "lens/exec.go:16-51"]}
{"id": "C70", "title": "The report file gives back the figures of the run", "statement": "A report written as JSON, with whatever keys an extension added (unless they are, without regard to case, keys of the report), is read back by the chart command as the same report: every text, count, time and list, nil lists as nil lists, field changes as the same maps; the counts of changed modules, reachable functions, project functions and tests are the lengths of the lists beside them. Charts drawn from the file have the total times of the run and, test by test, its name, state and number of changed fields. This holds for counts up to 2^53 and texts that are UTF-8: larger counts are rounded, field names that become equal when cleaned lose a difference, and an extension that writes a key of the report changes what is read.", "quantifier": "all reports, numbers of tests, field changes and added keys", "why_tests_cant": "Each field of each struct must survive two encodings and a map of floats; a test sees one report with small counts and no odd names.", "anchors": ["lens/report.go:25-92", "lens/report.go:98-107", "lens/report.go:200-295", "lens/report.go:298-345", "cmd/report/main.go:13-28"]}
{"id": "C71", "title": "The charts show the figures of the run", "statement": "Module change impact shows the share of changed functions that the project reaches; coverage shows the share of reachable functions that tests hit or that cannot be watched; field stability and mutations show the share of equal fields and of noticed mutations, and 100.0 exactly if there is no difference or survivor. Whatever unit is chosen (milliseconds up to 2000, seconds up to 120, then minutes), the times drawn are the totals of the run in that unit, and the label is faster by the saved share of the time before, or slower. Labels are red below a half and orange below four fifths; regressions and ten or more changed fields are red in the table. The picture has the kind its file name says, is drawn at most twice, and nothing is written on an error. Charts from a report file show the same figures as those of the run. False: coverage counts only functions that were hit; impact and coverage show 100.0 only if complete; slower has a positive number; no time recorded means there is none; the axis has at most ten marks.", "quantifier": "all counts, times, tests, drawings and file names", "why_tests_cant": "Figures depend on the ratio of unbounded counts and on rounding; tests compare a picture or two.", "anchors": ["lens/report.go:362-412", "lens/report.go:414-632", "lens/report.go:748-775", "lens/report.go:798-829", "lens/report.go:298-360"]}
{"id": "C72", "title": "The command line gives exactly the configuration its arguments spell", "statement": "Arguments are accepted exactly when they are settings of existing flags (-n=v, --n=v, -n v for flags that are not switches, -n for switches) whose texts are values of the flag, up to the end, to \"--\" or to the first argument that does not look like a flag; everything behind is ignored. Each field of the configuration is the last text given for its flag, read as its type, or the default; with the project, one of module, modules, gomod, gowork, and not both gomod and gowork, the configuration is handed on, else refused; custom flags of the three types are handed on as text; the order of settings of different flags does not matter; the defaults pass validation. A flag defined twice, with a bad name or a default of another type panics. A truth value after a space, a custom flag of another type, a GOPATH of several directories and an SVG name for the chart command do not do what one expects. A truth value is one of 1, t, T, true, True, TRUE, 0, f, F, false, False, FALSE and nothing else. The chart command writes a PNG under the name given, drawn at height 768 or, if that does not fit, at the height needed, or nothing if it cannot be drawn.", "quantifier": "all argument lists, all lists of custom flags, all GOPATH and GOMODCACHE values, any integer parser", "why_tests_cant": "Tests try a few argument lists; the grammar has unboundedly many and the global flag set can be parsed once per process", "anchors": ["lens/cmd/flags.go:16-149", "cmd/report/main.go:15-37"]}
{"id": "C74", "title": "The concurrent copy and chmod do all their work, in every order of their tasks", "statement": "In every execution of CopyDir and WriteChmod there are never more tasks than the limit, each path is handled at most once, and execution ends within four steps a path without getting stuck. A nil error means that the walk met no error and every path was handled exactly once: then the copy is exactly the one of C57, nothing outside the target being touched at any time, and after WriteChmod every file has write permission, every directory search permission too, links and everything else unchanged. If no system call fails there is no error: directories are there before what goes into them (for WriteChmod, if directories can be searched). After concurrentWalk has returned nothing changes any more. The progress dots count every whole 200 MB but the last, whatever the interleaving. It is false that CopyDir stops copying before it returns an error, and that WriteChmod of directories without search permission does not depend on the order of tasks.", "quantifier": "all directory trees, walks, limits, interleavings, failing calls and cancellations", "why_tests_cant": "Interleavings of tasks are not under the control of tests", "anchors": ["lens/file.go:97-178", "lens/engine.go:1008-1023"]}
{"id": "C73", "title": "The monitor servers are all started before tests run and all stopped when the analysis returns", "statement": "In every execution at most the computed number of servers is made, each accepting connections only on a port of its own that can be bound. Tests run only when all were started and none was stopped; an analysis that stops without having run tests had a server that failed, the last one made. However the analysis ends, once it returned no server accepts connections or ever will, and the requests of the servers handed to tests are over unless a stop ran into its 20 s limit, which happens at most once a server; no state keeps the analysis from returning. The error of a server is reported by every later SetPointHandler and Stop. StopOnProcessOrTimeout shuts the server down after the first look at which the process is gone, kill fails or the deadline has passed, at most one turn after the deadline, and returns an error exactly for the last two or an error of the server or its shutdown. It is false that all servers accept connections while tests run, that no request outlives the analysis, that every valid first port leaves room for all servers.", "quantifier": "all numbers of servers, interleavings of goroutines, requests and the analysis, failing binds, times and process states", "why_tests_cant": "Failures between the start and the check, and requests at the moment of stopping, depend on timing", "anchors": ["lens/astsrv.go:64-155", "lens/astexec.go:75-95"]}
{"id": "C75", "title": "A line-limited mutation run marks each changed function once before the tool runs and puts the sources back", "statement": "In every interleaving there are never more goroutines than the limit. While the tool runs every goroutine has finished without an error, each function with a changed line was marked exactly once and every source holds its original text with the marks of its functions applied one after the other. When the run returns, whatever the tool said, no goroutine is left, nothing happens any more and every path holds what it held before. This needs every bitmap to be set and every path to resolve: otherwise the run returns while goroutines still mark files, and a mark made after the restore stays.", "quantifier": "all lists of changed functions, file systems, goroutine limits, interleavings and failing calls", "why_tests_cant": "The order of goroutines and the deferred restore is not under the control of tests", "anchors": ["lens/mutation.go:71-198", "lens/asttweak.go:1870-1977"]}
{"id": "C76", "title": "The two report files agree, the JSON report comes first, and nothing else is written", "statement": "When WriteReportFiles returns nil (two different files) the JSON file holds a report that reads back, with the counts and identifiers that were given, and the charts were drawn from the figures, tests and rows of exactly that report. The charts are only touched when the JSON report is complete, and no other file is ever touched. Tests are in the order of their identifiers, which fixes the order when these differ. The storage provider opens at most one store and gives this one to all who ask after; each part of an engine is the one given for it; the caller hook sees what is returned, once, and its error leaves no result.", "quantifier": "all inputs, file systems, failing calls, map orders and sequences of calls", "why_tests_cant": "Tests compare one report of one run; that JSON and charts agree for all inputs, and what a failed write leaves, needs all inputs and all failures", "anchors": ["lens/engine.go:283-299", "lens/engine.go:625-753", "lens/report.go:111-178", "lens/report.go:200-295", "lens/report.go:362-391"]}
{"id": "C77", "title": "Output of commands: nothing lost before an error, the end of a test's output is the true end", "statement": "The locked buffer holds all that was written since the last Reset, in the order of the lock, and bytes returned by it do not change while others write (they do after a Reset). With a nil error the captured output of a command is all pieces of standard output and of standard error, each stream in its order; with an error it is a beginning of each. A line of standard output is only sure to be in one piece when nothing is written to standard error. Both streams of a test go to the buffer that keeps the last 8 KiB through one goroutine, so it holds the true end of what the test wrote in the order it was written. The text kept of a failed test is what is between the \"FAIL / exit status 1\" lines; it is empty only if the output has nothing but spaces.", "quantifier": "all writes, interleavings of the copying goroutines, failing writes to the terminal, outputs and ways to cut them into pieces", "why_tests_cant": "Interleavings of two copying goroutines and the reuse of a buffer's array are timing dependent; tests see one order and short outputs", "anchors": ["lens/util_io.go:88-128", "lens/exec.go:54-92", "lens/astexec.go:525-571"]}
{"id": "C78", "title": "Which calls are rewritten: one message per point, directly in front of its call, in any nesting of statements and function literals", "statement": "Rewriting the body of a function before matching calls ends for every body. The point ids drawn are consecutive, and the new body has one message for each of them (two messages may share an id when a selected operand holds a function literal). Each message stands directly in front of the statement with the call its point was drawn for. Every statement reached through blocks, branches, loops, clauses and function literals of statements without a call, that has a matching call where one is looked for, gets a point; calls in else-if conditions, case expressions, labelled statements, operands of a deferred call and the channel of a send do not. If the name uses of the body were declared and no condition with a call stands behind a declaring init statement, they are declared in the new body; else they may not be. The number of visits may grow exponentially with the nesting.", "quantifier": "all bodies over the statement and expression syntax with function literals nested to any depth, all sets of matching calls, package names and first ids", "why_tests_cant": "The rewriting visits literals repeatedly and edits lists while walking them; tests try a few statement kinds at depth one or two", "anchors": ["lens/asttweak.go:702-1057", "lens/asttweak.go:1072-1157", "lens/asttweak.go:1209-1224"]}
{"id": "C79", "title": "Instrumenting the files of a directory at the same time", "statement": "The goroutines that instrument the files of one directory and the one that puts the client into it all look through the directory while others write its files. A package name found for the client is that of the directory's files under every interleaving; type information, when there is any, is made from exactly the accepted files of the package with the instrumented file as it is in memory; looking never dereferences a nil pointer for a file that go would build; results written as interface types get a temporary with and without type information. Refuted: that the package is always found (reading a file in the middle of a commit makes the injection and the run fail), that type information is missing only during commits of instrumented files (it also is while either client file is being written), and that what is reported is independent of the schedule (before the client is written, only the first function of a file has type information, which decides whether a returned identifier is shown a second time as ret0).", "quantifier": "for all directories, all sequences of writes of the goroutines, all times at which the directory and each of its files are read, all type checkers and build contexts", "why_tests_cant": "the schedule of the goroutines decides; a test sees one schedule, and on small packages almost always the same one", "anchors": ["lens/asttweak.go:208-309", "lens/asttweak.go:1167-1204", "lens/asttweak.go:1398-1459", "lens/astexec.go:311-395"]}
{"id": "C80", "title": "A function gets its return points once", "statement": "The editor marks a function that has its return points by a comment in its doc, and puts no second set into a marked function. Over every sequence of calls and commits on a file: a function with a doc comment has at most one point before each return, and one at its end if there is none; so has every function between two commits, and in a file without comments every function instrumented before the first commit; asking again before the commit gives no ids and changes nothing; the ids given are the points put in, in the right function and in no other; no id is in the file twice; a commit writes every point. Refuted: for a function without a doc comment in a file with comments the mark is not written, so that it is instrumented a second time after a commit; a doc comment that mentions the mark keeps its function from ever getting points; an error when the ids run out leaves points in the file whose ids nobody knows.", "quantifier": "for all files, all starting ids, all sequences of return points, other points, ids drawn for other files and commits", "why_tests_cant": "the loss of the mark shows only when a function is instrumented again after a commit, in a file with comments, without a doc comment", "anchors": ["lens/asttweak.go:123-177", "lens/asttweak.go:399-453", "lens/asttweak.go:510-691", "lens/asttweak.go:1853-1863"]}
{"id": "C81", "title": "From a value in the program to a reported difference", "statement": "For every call of a state point whose values are within the limits, have distinct part names without dots and meet no address twice, the frame kept of it has exactly the undivided values reachable from the captured variables, each under its dotted path and in the stored form of its printed text; and, through storing and loading, a field is reported for a caller exactly if two matched calls had values there that are stored differently, with the text of the last such call. So a value printed differently after the update is noticed if both texts are short or of string types, and nothing is reported if every call has its match with the same values, whatever the addresses, the order of map iteration and the times. Refuted: values of different type with the same text are told apart; nil and empty containers are told apart; the same values never give a difference (two entries of a map with the same pointer are shown by the order of iteration).", "quantifier": "for all heaps, values, nestings, paths, stacks, numbers of calls and callers, all limits, printers, digests and diff functions", "why_tests_cant": "the claim joins six components; a test of one of them with hand-made input does not see what another drops or renames, and map order is random", "anchors": ["lens/astclient.go:86-118", "lens/astclient.go:238-518", "lens/astsrv.go:177-195", "lens/astexec.go:735-754", "lens/astexec.go:839-878", "lens/types.go:597-618", "lens/engine.go:349-610"]}
{"id": "C82", "title": "Identifiers stand for declarations, and the listing of functions", "statement": "In a package that compiles, an identifier stands for exactly one declaration, apart from several init functions and blank names; a function of the program has the identifier of its declaration, no made-up function has one of a declaration apart from the initializer of a package, and the function taken for a changed one does not depend on the order of iteration when its identifier is not shared; the functions listed for a module are exactly its declarations that can be printed, in order; an error of the printer is reported only for the last function of a file; a method whose receiver is written differently counts as another one", "quantifier": "every package path, declaration, receiver type, program and order of iteration", "why_tests_cant": "All names and receiver types; the order of iteration over a map and failures of the printer are not under the control of a test.", "anchors": ["lens/static.go: MakeFunctionIdent, MakeSSAFunctionIdent, filePathForSSAFunc", "lens/module.go: ExtractModuleFunctionsFromPackages, extractFunctions", "lens/types.go: ShortIdent, ChangeFunctionIdents, TargetFunctionIdents"]}
{"id": "C83", "title": "After the whole analysis the project is as before", "statement": "However an analysis of an update ends, every monitor server started is stopped, results after the update are returned exactly when there is no error, and if the calls of the editor are not cut off half way and the restores succeed, every edited source file, backup and generated file is as before, go.mod has its contents and go.sum has if it existed, and a file that no test and no command touches is unchanged; a failed restore of the first run, which is only logged, leaves the sources edited although no error is returned", "quantifier": "every outcome of every step, every sequence of edits and of writes by tests and commands, every set of files and module directories", "why_tests_cant": "The order of failures, restores and foreign writes cannot be driven by tests; an end-to-end run needs the network and the Go tool.", "anchors": ["lens/astexec.go: RunModuleUpdateAnalysis, runMonitoredTestAnalysis", "lens/asttweak.go: Restore, Commit, InjectASTClient"]}
{"id": "C84", "title": "Values sent together have different names and are all stored", "statement": "In every message of an instrumented function each name occurs once, a variable of the program is sent under its own name and a result under its number; the same holds of the arguments and the receiver of a call; with different names every value is stored as it would be alone, with equal names only the last is. It is false for a program with a variable called ret0 or a receiver called arg0: one value hides the other", "quantifier": "every function body, set of visible names, result list, call and message", "why_tests_cant": "The names come from the analysed program; a test has only the names it was written with.", "anchors": ["lens/asttweak.go: makeSnapshotLit, makeSnapshotLitWithCustomName, buildImplicitReturnInstrumentation, buildReturnInstrumentation, buildCallInstrumentationWithArgs", "lens/astexec.go: collectFields"]}
{"id": "C85", "title": "What happens in a function is recorded for that function", "statement": "With the points of one successful injection, whatever order goroutines draw ids, batches finish and messages arrive in, every value sent at a return of a function is recorded for that function's identifier and no other, those of one connection in the order sent; the same holds of hooks' points and of panics of project and changed functions; the changed functions reported as reached are those that were entered, each counted once; an id is in at most one of the tables, no message is of an unknown point, and collecting the result does not wait forever", "quantifier": "every set of functions, files, ids, interleaving of injection and of messages, program events", "why_tests_cant": "Needs all interleavings of the counter, of the batches and of the monitor's goroutines together; a test has one.", "anchors": ["lens/astexec.go: injectMonitorPoints, HandleFuncPoint, HandleFuncPointState, HandleFuncPointPanic, makeTestResult, getModuleChangesReached", "lens/asttweak.go: nextPointId, injectPoint, InjectFuncPointReturnStates"]}
{"id": "C86", "title": "What is reported was seen to change, and changes are reported", "statement": "For a test run twice before the update and once after it, with the second result filtered by the stored first one, a difference is reported for a function and a name exactly if at some call the value stored under that name was the same in both runs before and another after the update; the text is that of the last such call; what is reported was captured at returns of functions of that identifier; a program whose calls go on with the values both runs agreed on has a difference count of 0; with one connection in each run every change of a captured value is reported", "quantifier": "every program instrumented as in C85, captured values within the limits of C81, interleavings of messages, stored results read back", "why_tests_cant": "Needs all pairs of runs before the update and every interleaving after it; a test compares a few fixed runs.", "anchors": ["lens/astexec.go: runMonitoredTest, makeTestResult, HandleFuncPointState, computeStableFrames", "lens/engine.go: compareProjectFields", "lens/types.go: Minimum"]}
{"id": "C87", "title": "What is compared is what the runs stored", "statement": "From an empty store, when the loop over the tests before the update and the one after it end without an error: the comparison lists every test exactly once, in order of identifiers; each report compares the part on which this test's two runs before agreed, as written to the store and read back, with what was recorded of this test's run after; and what the run after used as its filter is the same stored result. With values within the limits of recording, everything listed in a report is a change of a value seen in both runs before and in the run after of the same test, and every such change is listed in the report of its test. And whatever the store contains: stored bytes that are not a result fail the comparison instead of being taken for an empty or missing result, and a test that is only there after the update gets an empty report. Refuted: that this also holds for a store that was used before (results of an earlier analysis are reported again).", "quantifier": "for all stores that behave as maps (the one in memory, the one on disk), all interleavings of the tests on any servers, all programs, results, hash functions without collisions on the results and byte formats that give back what was stored", "why_tests_cant": "the parts are tested with values made by hand; that no test's result is written over, missed or attributed to another between the run and the report depends on schedules, keys and the encoding together", "anchors": ["lens/astexec.go:100-182", "lens/astexec.go:215-298", "lens/engine.go:390-420", "lens/engine.go:612-624", "lens/types.go:410-531", "lens/storage.go:36-94"]}
{"id": "C88", "title": "Every stage of a run is given what the stages before it gave", "statement": "In every run of the engine, whatever the providers do: each provider is called with the configuration left by the preparation (and the set-up of the copy), and with values that earlier providers of the same run gave: the module analysis with the modules found, the caller analysis with the functions of all modules ordered by the names of the modules, the test search with the callers, the execution with the store opened, the modules, the callers and the tests, the mutation testing with the functions and tests and with flags that follow from the options, the comparison with the two results of the execution, and the report with exactly these figures; reports written early contain no figures of stages that did not run. Each provider is called at most once, in the order of C42. If no provider turns the clock back, the durations reported are not negative and together no longer than the run. The functions handed on do not depend on the order of the map of modules. An error of the module analysis is replaced by advice about the first module the text of the error speaks of. A second run of the same engine is refused before any provider is called. Refuted: that the module named in the advice is the one that is missing, that the original error is kept, and that a second engine sharing the default storage provider is given an open store.", "quantifier": "for all providers, worlds, configurations, clocks, orders of maps and error texts", "why_tests_cant": "the tests replace one provider at a time by a stub and look at single calls; no test follows a value from one stage through the others", "anchors": ["lens/engine.go:626-656", "lens/engine.go:691-930", "lens/engine.go:283-301", "lens/engine.go:787-802"]}
{"id": "C89", "title": "The store on disk leaves nothing behind and touches nothing else", "statement": "Whatever stores are opened, used and closed in whatever order: a path outside the directories of all these stores that nobody else changes keeps what is there, except that directories on the way to a store may be new. A store opened in a directory that is not there yet, whose parents are, leaves after closing exactly what the other writers made of the files. No two stores that are open have the same directory, and the default places of different processes or times are different and none is inside another. With compression by hand (options.None) a value that fits in one piece is loaded as it was saved. Saving under a key again leaves every entry of the database as if only the last value had been saved. Refuted: that a directory given for the store keeps what was in it (Close removes all of it), that everything is as before when parents had to be made, that closing a store twice does not harm the next store in that directory, and that with compression by hand a value that has to be split is loaded as it was saved (as many zero bytes come before it).", "quantifier": "for all files, sequences of openings, closings, writes of the databases and of others, paths, values, limits and compressions that are undone by decompression", "why_tests_cant": "the tests use fresh temporary directories and the built-in compression, so neither files that were there before nor the other branch of the constant are ever met", "anchors": ["lens/storage.go:92-94", "lens/storage.go:172-291", "lens/storage.go:293-359", "lens/storage.go:418-421", "lens/compress.go:11-37", "lens/engine.go:627-647"]}
{"id": "C90", "title": "The code put in place of returns compiles", "statement": "For every function that compiles, whatever its types, the function with its returns replaced compiles exactly when at every replaced return the client's names mean the client's declarations, every recorded name can be put into an interface, and every result handed on through an added variable fits the type of that variable and that type the result. In particular it compiles where the names of the result types mean the same as in the signature, no recorded name or returned identifier is a constant too large for its default type, and no untyped expression shares a name with its result type; every added variable is declared once and used, and the function still ends in a terminating statement. Bare returns and returns of one call with several results need nothing of the types. It does not compile when a variable hides the result type at a return of nil, for an untyped comparison that names its own result type, and for large constants in scope.", "quantifier": "every statement language program, every type system obeying the laws of Go (types depend on the names in them, assignability is reflexive), every scope, every answer of the type information", "why_tests_cant": "tests run a handful of functions of well-known types; names that hide types, named booleans and large constants do not occur in them", "anchors": ["lens/asttweak.go:1306-1530", "lens/asttweak.go:1714-1794", "lens/asttweak.go:556-681"]}
{"id": "C91", "title": "The return added at the end compiles and gives zero values", "statement": "For every signature Go accepts, the return added at the end of a function without visited return is bare exactly when every result is a variable with a name, and otherwise gives one value per result: the result's own name, or for blank and unnamed results an expression that is a value of the result type and its zero value, provided the names of the type mean the same at the end as in the signature, the predeclared type names are not declared anew and false, nil and new are not hidden. Without these it does not compile: a parameter called new or nil, one that hides the result type, a package type called byte.", "quantifier": "every signature, every type expression, every scope and type system obeying Go's laws", "why_tests_cant": "tests cover single types in otherwise empty packages", "anchors": ["lens/asttweak.go:527-545", "lens/asttweak.go:640-680", "lens/asttweak.go:1532-1619"]}
{"id": "C92", "title": "Which rewritten calls compile", "statement": "For every correct call of a function with given parameter types, in every scope where the client's names mean the client's declarations and the generated names are unused: the statements put in front of it and the rewritten call compile, with the same signature, exactly when a captured receiver is a value, every argument kept in place is a single value that can be put into an interface, and every argument taken out is a single value whose default type may still be assigned to its parameter. So calls on values with typed arguments always compile; results of a call passed on as arguments, packages not recognised by the end of their path, untyped constant expressions for other types than their default type and constants that do not fit an int never do. No variable is declared twice in front of a call, nor by the statements of two different points.", "quantifier": "every typing of expressions obeying the stated laws of Go, all scopes, receivers, argument lists, variadic calls, point ids and package names", "why_tests_cant": "The examples of a test are a few calls with fitting types; which calls stop compiling depends on the types of all parameters", "anchors": ["lens/asttweak.go:1072-1157", "lens/asttweak.go:1797-1810"]}
{"id": "C93", "title": "The names in the inserted function points", "statement": "If neither the function, its file nor its package declares recover, panic or nil, and neither the function nor its file the client's sendLensPointMessage and sendLensPointRecoveryMessage, then the statements put at the start of the function for panics, entry and completion compile, and the function has exactly the runs it had, with the same results and panics, and with one message more: at entry always, at completion always, for panics exactly when it is left by a panic other than nil. A parameter, result or receiver of such a name that cannot be called that way, or be compared with an interface value in the case of nil, makes the file not compile; one that fits is used in place of the builtin, so that a function that returns may panic and a panic may be lost.", "quantifier": "every function given by its runs, all scopes of the function, its file and its package, all point ids, all meanings of the program's own declarations", "why_tests_cant": "Tests instrument functions whose parameters have other names; what matters is every declaration that may stand around the inserted code", "anchors": ["lens/asttweak.go:458-506", "lens/asttweak.go:1829-1851", "lens/astclient.go:61-68", "lens/astclient.go:120-129"]}
{"id": "C94", "title": "Rewritten go statements", "statement": "A go statement whose call is selected becomes a go statement of a literal that evaluates the operands, sends the message and makes the call. If the operands of these statements do nothing but give a value that does not change while the program runs, and receivers may be copied, the rewritten program has, apart from messages, exactly the runs of the program: nothing new, nothing lost, and no operand ends it; every call started has a message of its own, sent before it, with the values it got. Otherwise the operands are evaluated later, by the new goroutine: the function may get a later value than the program would have given it, and a panic of an operand ends the program although the calling function would have recovered it.", "quantifier": "All programs as transition systems over any states and values, all numbers of threads, all interleavings, all operands and go statements", "why_tests_cant": "Schedules cannot be enumerated by tests, and a test with a quick goroutine rarely sees an operand change between the go statement and its evaluation", "anchors": ["lens/asttweak.go:843-879", "lens/asttweak.go:1072-1157"]}
{"id": "C95", "title": "File name patterns", "statement": "filepath.Match answers for patterns of characters and stars exactly whether the name is one the pattern stands for, and never with an error; a class of characters matches the names of one character that is in one of its ranges, or with a circumflex in none; a text with a backslash before each of its characters stands for itself only; an error at the end of a pattern is reported for every name. filepath.Glob on an absolute path of such elements gives exactly the paths that match element by element and are there. So in a directory whose path has no special characters InjectASTClient finds a client exactly if the directory has a file named xx_lens_..._gen.go, and a package that has one gets no second one; and a use directive with stars gives exactly the matching directories, named from the workspace. With special characters in the path itself both fail: a client is missed, or one of another directory is found; a workspace loses its modules or cannot be read. In particular a client below a directory with an opening bracket and no closing one after it is never found, whatever is on disk: Glob reports an error, which is dropped.", "quantifier": "All patterns of characters and stars, all classes of ranges of ASCII characters with or without backslashes, all names, all directory trees, all depths, all workspace and package directories", "why_tests_cant": "Tests run in a few directories with ordinary names; that leftmost matching of chunks loses no match is a statement about all patterns", "anchors": ["lens/asttweak.go:208-211", "lens/module.go:357-402"]}
{"id": "C96", "title": "Goroutines that edit files at the same time end like calls one after the other", "statement": "InjectASTClient for pairwise different directories and the writing of pairwise different edited files, each in its own goroutine, write by write and with any failures: in the end files and cleanup actions are, in every interleaving, those of the same calls with the same outcomes one after the other in some order. Every goroutine that ended without an error has left its two client files, or its text and the backup, and its cleanup action; when none was stopped in the middle of a client file or backup, a successful cleanup brings back every file; and at every moment the original text is in the file or whole in its backup. For two goroutines on the same directory it is false: both write the client and note its removal, and one removal fails. The goroutines injectMonitorPoints starts for functions sorted by file are such: every file of a function is written by exactly one and every directory gets its client from exactly one, unless it has project and changed module functions. With the tests and the deferred Restore they are a session as in C83.", "quantifier": "all sets of goroutines, all interleavings of their writes, all failures, all file contents", "why_tests_cant": "A schedule in which two goroutines meet between a check and a write is rare and cannot be forced by a test; the tests edit one file at a time.", "anchors": ["lens/asttweak.go:208-251", "lens/asttweak.go:145-205", "lens/asttweak.go:386-397", "lens/astexec.go:370-480", "lens/astexec.go:184-204"]}
{"id": "C97", "title": "The editor's locks do not deadlock and lose no edit", "statement": "For every assignment of files to lock stripes and every way in which goroutines run edits, CommitFile, Commit and cleanup: some goroutine can always go on until all calls have returned and no run is endless; two goroutines are never inside one lock; without Commit every file is in the end its old text followed by all edits made to it, unless writing this file has failed, each goroutine having made all its edits once and in order; when every edit is followed by a CommitFile of its file this is on disk and nothing is left parsed. After all have returned, a Commit brings every file to disk that it does not fail to write, and leaves nothing parsed when nothing fails. A Commit running while a file is edited can lose the edit without an error.", "quantifier": "all stripe functions, numbers of CPUs (positive for progress), numbers of goroutines, call lists, interleavings and write failures", "why_tests_cant": "lock order and lost updates show only under particular schedules, and there is no bound on the goroutines and files", "anchors": ["lens/asttweak.go:65-77", "lens/asttweak.go:92-205", "lens/asttweak.go:386-441", "lens/asttweak.go:510-524"]}
{"id": "C98", "title": "Quoted texts are read back byte for byte", "statement": "A text written with strconv.Quote, as the names in the calls that are inserted into the sources and the values in the text of a difference are, is read by the compiler as exactly that text, whatever bytes it has and whatever follows the literal; it is one line without control characters, so a name never ends the literal early or breaks the line. Different texts have different literals and none begins another: the text of a snapshot says which name is shown and which value, and where one of two values is too large to be kept the text of the difference still says what the other one is.", "quantifier": "All byte strings, valid UTF-8 or not, all texts after the literal, all tables of printable characters in which the byte order mark is none", "why_tests_cant": "Names and values with quotes, backslashes, control characters, characters beyond the basic plane and bytes that are no UTF-8 come together in endless ways; tests have a few of them", "anchors": ["lens/asttweak.go:1670-1712", "lens/asttweak.go:1631-1648", "lens/engine.go:364-376"]}
