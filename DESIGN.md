# Design of the formal model of go-update-lens

Prover: Rocq/Coq 8.16.1, standard library only (no other library's axioms, none of our own).
Sources: `/repo` (Go) is read as text only; nothing there is executed.

## Method

* Each Go function that carries one of the properties is transcribed into a total Gallina
  function in a `Model`-style section of a theory file. Every definition has a comment with
  the Go file and line range it transcribes, and says what was simplified.
* Bytes are `N` below 256 or `Ascii.ascii`; Go strings are lists of bytes (`string`);
  machine integers are `N`/`Z` with the wrap-around written out (`mod 2^32`, `mod 2^64`).
* Loops whose bound is not structural get fuel with an explicit out-of-fuel outcome; a theorem
  then shows that enough fuel always exists.
* External calls (file system, go tool, badger, http, sha1, diff library) are either small
  state machines, or oracles: section variables that become universally quantified
  arguments once the section is closed, never axioms.
* Concurrency is modelled as a labelled transition system whose labels are the atomic steps
  (channel operations, mutex operations, CAS). Theorems hold for every reachable state.
* A property is stated against a small specification that does not use the model's helpers
  (maps as functions, multisets by `count_occ`, paths as relations, sortedness, `Permutation`).
* If the faithful model violates the statement a user would expect, there is a theorem named
  `..._refuted` with a concrete witness, and the true statement carries the exact side condition.
* Beside each theorem there is an `Example` that meets its hypotheses on non-trivial data.

## Plan per property

| id | model | proof |
|----|-------|-------|
| C01 | varint writer / reader over byte lists | induction on the number of 7-bit groups |
| C02 | zig-zag on 64-bit words | arithmetic with explicit mod 2^64 |
| C03 | value trees, all tags, encoder and fuelled decoder | mutual induction over trees, suffix-generalised round trip |
| C04 | string-table builder, frame writer / reader | invariant of the table builder, then list induction |
| C05 | the four messages, streams of them | composition of C01-C04 |
| C06 | same decoders | every reader is prefix-strict: lemma combinator on monadic readers |
| C07 | same decoders on arbitrary bytes | induction on fuel |
| C08 | client snapshotter over an abstract heap (addresses, cycles) | fuelled traversal, induction; refutation for the unwrap loop |
| C09 | memory store ops | refinement to partial function, induction over histories |
| C10 | prefix views over any store | refinement + frame lemma on string prefixes |
| C11 | badger store over a key/value map with split keys | simulation relation, induction over histories |
| C12 | split arithmetic | `lia`/`nia` on division, list lemma |
| C13 | load as two transactions, interleaved saves | LTS; expected to be refuted by a concrete schedule, with the positive claim for a single transaction |
| C14 | flatten of trees | induction over trees, injectivity of dot-joined paths |
| C15 | dictionary encoder / decoder of results (without msgpack's own byte syntax) | table-builder invariant as in C04; for the sizes of the tables, that an index and its table grow together |
| C16 | ID hashing input stream | sorting uniqueness (permutation of distinct keys sorts to the same list) |
| C17 | token channel + counter LTS | inductive invariant |
| C18 | striped lock LTS | inductive invariant |
| C19 | rolling buffer | invariant over write sequences |
| C20 | tee over sinks with arbitrary behaviours | induction on sinks and on writes |
| C21 | environment merge | list specification |
| C22 | `filepath.Rel` on clean absolute paths + prefix test | induction on path components |
| C23 | go.mod diff | list specification |
| C24 | level-wise worklist with visited set over oracle graph | termination measure, invariants, reachability |
| C25 | bitmap from edit script | specification on indices, list induction |
| C26 | min/max fold | fold invariant over a total preorder |
| C27 | dotted version comparison | lexicographic order lemmas |
| C28 | reverseDFS | visited-set invariant, reachability both ways, termination |
| C29 | sort + in-place merge | sum preservation, strict sortedness |
| C30 | name predicate | case analysis |
| C31 | CAS loop LTS | inductive invariant |
| C32 | stable-field filter | set semantics on field paths |
| C33 | multiset intersection | `count_occ` = min |
| C34 | bounded stored values, hash as oracle | length bound, functionality |
| C35 | wait-group accounting LTS | invariant, refutation schedule |
| C36 | go.mod backup/restore over abstract files with failing steps | case analysis over every failure plan |
| C37 | backup/restore action list over abstract file system | invariant over operation sequences |
| C38 | grouping and batching | list/permutation lemma |
| C39 | stack key rendering | injectivity of separated joins |
| C40 | diff rendering | by cases |
| C41 | comparison of result sets | specification by alignment, soundness and completeness |
| C42 | engine run as program over oracle outcomes emitting a trace | exhaustive case analysis over outcomes, trace invariants |
| C43 | option validation | boolean reflection |
| C44 | cut at first '@' | list lemma |
| C45 | table selection | sorting lemma |
| C46 | root choice | case analysis |
| C47 | line insertion | list induction, subsequence |
| C48 | mini-Go statements, big-step semantics, return instrumentation | simulation by induction on evaluation |
| C49 | mini-Go calls with evaluation order of operands, positions and deferred calls, call instrumentation | simulation in both directions / refutation by concrete programs |
| C50 | grouping of functions/tests, parsing results | list specification |
| C51 | line limiting | unique split into lines |
| C52 | changed functions of a package pair | set specification over identifiers, permutation of map orders |
| C53 | workspace diff, requirement lookup | list specification |
| C54 | identifier strings, exported call graph | injectivity of the rendering, set specification |
| C55 | stack file names | prefix lemmas |
| C56 | choice of the modules of a run | case analysis over the options |
| C57 | temporary copy over a tree of nodes | walk invariant, frame on paths outside |
| C58 | charts from a JSON report | round trip of the rows |
| C59 | identifier lists of the report | sorted, duplicate-free, permutation invariant |
| C60 | the script run for each mutant over abstract files | case analysis over every failing step |
| C61 | the scan for visible names over positioned trees | induction over the tree against Go's block scopes |
| C62 | the test loop as a transition system over goroutines, channel and handlers | invariants over traces, a decreasing measure |
| C63 | comparison of map keys by kind | agreement with the lexicographic order of a flattening |
| C64 | path cleaning and the expansion of work files | paths as walks from the root; relative cleaning preserves walks |
| C65 | depth-first creation of packages over an import graph | added set closed under imports, fuel against unvisited nodes |
| C66 | functions as runs with deferred functions, panics and Goexit | splitting the unwinding at the first deferred function, simulation for callers |
| C67 | texts of the mutation scripts and how bash reads them | reader inverts writer; exact conditions for field splitting |
| C68 | directory entries, declarations with their names, types and expressions | meaning of a group of specs, kept or replaced name by name |
| C69 | addresses as text, environment entries, requests | number texts read back, last entry of a name wins |
| C70 | structs as JSON values, through a map, into a file and back | one lemma per kind of field, looked up by tag in sorted objects |
| C71 | counts and times to labels, bars, colours and units, over the rationals | linear arithmetic; any rounding to a nearest tenth |
| C72 | command line parsing (flags.go, package flag) | settings spelled in the arguments, both ways; last one wins |
| C73 | monitor servers as a transition system (goroutines, requests, start, deferred stop); the wait for a process | invariants over all interleavings; least turn of a loop |
| C74 | CopyDir, WriteChmod, concurrentWalk as a transition system (walk, tasks, limit, context) | invariants over all interleavings, a measure for termination; the copy is C57's |
| C75 | line-limited mutation run as a transition system over the editor of C37 | invariants over all interleavings; restore is the last call |
| C76 | WriteReportFiles over the file system, the storage provider, the parts of an engine, the caller hook | frame lemmas for each write; reading back is C70, totals are C58 |
| C77 | the locked buffer as arrays and slices of them, the two copying goroutines of a captured command, a test's output, cleanExecOutput | invariant over the steps (a slice lies below what is filled); induction over interleavings; the mark has no border, so matches cannot overlap |
| C78 | InjectFuncPointBeforeCall over trees of statements, expressions and function literals, with its own earlier output as input of later visits | measure on nesting that the added literals do not raise; relations kept by every replacement (messages counted, message in front of its call, names in scope); 2^n visits by induction |
| C79 | the directory as the files change in two steps each, looks at it spread over time, buildTypesInfo, InjectASTClient | every text a file ever has is kept by an invariant over the writes; parse_dir's result is characterised by C68 |
| C80 | the editor on one file: parsed functions with docs and points, the comments the printer writes, ids, commits | each call changes one function in one of four ways; invariants over all sequences of calls |
| C81 | the models of client, wire, monitor, codec and comparison put together, from a value in the program's memory to a field of the report | paths through the heap as specification; C08, C05, C34, C14, C15 and C41 composed; induction on the path |
| C82 | identifiers of declarations and of functions of the program, receiver types as written, the listing of a module's functions, short identifiers | the rendering of receiver types is injective; the rules of the language as hypotheses; C54 for the parts |
| C83 | the whole of RunModuleUpdateAnalysis: servers, both runs of the tests with foreign writes between the calls of the editor, backups, commands, restores, what is returned | tests and commands write anywhere but the editor's files, the module files and backups; C36 and C37 for the parts |
| C84 | names of the values in the messages of return and call points (InstrModel, CallModel), their collection (MonitorModel) | induction over the rewritten body; different names are what C81 assumes |
| C85 | all points of one editor: for whom each id is drawn, the five tables of injectMonitorPoints with hooks and failing batches, the messages of the program (AttrModel; BatchModel, ModifierModel, MonitorModel) | ids of one counter (C31) in batches (C38) handled by the monitor (C35), put together |
| C86 | two runs before the update, their stable result stored and loaded as the filter of the run after it, the comparison (RunsModel; AttrModel, MonitorModel, StableModel, CompareModel) | C32, C35, C41, C81 and C85 put together; calls that keep their place among those with the same stack |
| C87 | the loops before and after the update writing through two views of one store, the stored form and msgpack as a lookup that gives back what it was given, the comparison reading from the store (StoredModel; TestRunModel, StorageModel, TypesModel, CompareModel) | C10, C15, C41, C62 and C86 put together; the store's state after every prefix of the second loop |
| C88 | Run with its data: arbitrary providers over a state of the world, the log of calls with arguments and results, deferred calls, the report's arguments, the error of the module analysis, the default caller and storage providers (EngineDataModel; EngineModel, ModuleModel) | one invariant over the log, kept by every stage; a map from logs to the events of C42; times follow from monotony of the clock |
| C89 | files as a function from paths, os.MkdirAll and os.RemoveAll, stores opened and closed in any order among writes of databases and others, the default place, the branches for compression by hand (StoreLifeModel; StorageModel) | induction over the acts; C11 for reading the parts of a value back; that removing old parts undoes any earlier saving but for the main entry |
| C90 | the blocks of InstrModel checked as a Go compiler does: scopes, assignability, unused and repeated variables, terminating statements (CompileSpec; InstrModel) | induction over the results of a return with the added variables as an overlay of the scope; induction over statements for the whole body |
| C91 | type expressions, zeroValueForType, the added return (ZeroModel) | case analysis over type expressions |
| C92 | the statements in front of a call and the new call checked as a Go compiler does: receivers, parameters, default types, values put into an interface (CallTypeSpec; RewriteModel) | induction over the arguments with the added variables as an overlay of the scope |
| C93 | the statements of the function points as written, the names in them looked up in the scopes around them, types and runs of what they find (PointNameModel over PanicModel) | inversion of the runs of the literal; the deferred function exchanged for an equal one at the end of the unwinding |
| C94 | threads that interleave step by step, a go statement as written and as rewritten, operands evaluated one step each (GoStmtModel over RewriteModel.build) | simulation in both directions with the phase of each literal; messages and calls paired by a permutation |
| C95 | filepath.Match and filepath.Glob after their source, over directory listings; the pattern for an injected client and those of use directives (GlobModel with ModifierModel, WorkModel) | the leftmost place of a chunk is the best one; induction over the elements of the path |
| C96 | goroutines putting clients into packages and writing edited files, write by write, in any interleaving (InterModel over ModifierModel) | a goroutine depends on its own paths only; local invariant per goroutine; the order of the cleanup actions gives the order of the calls |
| C97 | goroutines editing, committing and cleaning up under the file, commit and cleanup locks, lock by lock, with the goroutines of Commit (EditLockModel) | the lock order is file, commit, cleanup, so someone can go on; ranks fall with each step; the owner of a file's lock alone touches what belongs to the file |
| C98 | strconv.Quote with the decoding of UTF-8, the reading of string literals, and the text of a snapshot (QuoteModel, with CompareModel) | each piece that is written is read in one step as the bytes it stands for; arithmetic on the ranges of UTF-8 |

The exact statements proved are in `properties.jsonl`; where the model showed the first wording
to be false the wording was corrected there, and the false reading has a `_refuted` theorem.

## Trusted base

* Coq 8.16.1's kernel (and `coqc`, the standard library's `.vo` files, and the machine running them).
  `vm_compute` is used in some examples and closing computations and is part of the kernel.
* `Print Assumptions` follows every theorem of the `*Props*.v` files. It says
  "Closed under the global context" for each of them: no axiom, not even one of the standard
  library, is used. (The gate lists the names of `Coq.ssr.ssrunder`; they come in with
  `Require`d standard library files and no theorem depends on them.)
* No `Axiom`, `Parameter`, section-less `Variable`/`Hypothesis`, `Admitted`, functor, module type,
  `Declare Module`, plugin, or switched-off check is used.
* The transcription from Go to Gallina, definition by definition. Each definition cites the lines it
  stands for. This is not machine checked: nothing is extracted from or run against the Go code.
* What the definitions say of code outside the repository (listed below).

### External code, as the model sees it

| what | in the model |
|------|--------------|
| SHA-1, base91, `fmt.Sprint`, `%q` (but for C98), unified diff, go-difflib's opcodes | arbitrary functions, except where a theorem states a hypothesis about them (injectivity of the digest, edit scripts that turn one text into the other) |
| msgpack | items are abstract; its byte syntax is not modelled |
| badger | a map with snapshot-isolated transactions that may fail; it writes below its directory only and locks it while open |
| zstd | decompression undoes compression; DecodeAll appends to its destination (only C89) |
| file system | partial map from paths to nodes; every call may fail, also half way; no crash of the machine, no other writer |
| go/parser, go/ast, go/printer, go/scanner | given: positions, tokens and statement trees; the printer only where C50 needs it, and that it writes `File.Comments`, docs of declarations only if that is nil (C80) |
| golang.org/x/tools (packages, ssa, callgraph) | given: a graph with attributes on nodes |
| golang.org/x/mod/modfile | given: requirement lists; semver is modelled from its published source |
| bash | double quotes, field splitting, file name expansion as arbitrary function (ScriptModel); the steps of the script as C60 has them |
| go command, go-mutesting, tests under analysis | arbitrary outcomes |
| HTTP transport | every subset of the sent messages arrives in any order; bodies arrive whole or cut |
| defer, recover, panic, `runtime.Goexit` | the rules of the language specification, as the relations `exec` and `unwind` of PanicModel and InstrModel's evaluation, and `ostep` and `nstep` of GoStmtModel for go statements |
| `reflect` | values as trees with a heap of references |
| Go scheduler | any interleaving of atomic steps; the Go memory model is taken to give sequential consistency for race-free code |
| `go/build` | which files of a directory are built, given per entry |
| go-charts | labels are numbers rounded to a nearest tenth; a drawing may fail and has a height |
| flag | modelled (its parser; FlagsModel.v); strconv.ParseInt is any function; GOPATH as go/build gives it |
| errgroup | modelled (limit, first error cancels, Wait; WalkModel.v); the calls of filepath.Walk are a list fixed at the start |
| float64 | whole numbers are exact up to 2^53; quotients are rationals |
| encoding/json | values, not text: struct fields by tag, maps by key, numbers of interfaces as floats (exact to 2^53), field names without regard to ASCII case |
| `os/exec` | of several entries for a variable the last counts; one goroutine copies each stream to its writer, one for both if the writers are the same; Run returns an error if a copy or the process failed, after both copies ended |
| strconv.Quote, unicode/utf8 | in C98 modelled from their source (QuoteModel.v), the table of printable characters as any function that has the byte order mark not printable; elsewhere arbitrary functions |
| filepath.Match, filepath.Glob | modelled from their source (GlobModel.v), decoding of UTF-8 as arbitrary function; in C64 any function |
| Go maps | any iteration order |

## What is modelled and what is not

Numbers are lines of the file in `/repo/lens`. A function that is not named here is not modelled.

| file | modelled | theory | not modelled |
|------|----------|--------|--------------|
| astclient.go | message encoding 62-111, 121-136, 171-236, 644-688; snapshots 86-118, 238-518; comparison of map keys 519-642; endpoints, stack and requests 44-59, 138-195 | WireModel, ClientModel, KeyOrderModel, ReachModel | transport |
| astsrv.go | starting and stopping 64-155, handlers 157-234, all decoders 242-738, address and port 72-90 | WireModel, ReachModel, ServerModel | net/http itself |
| storage.go | all stores 36-421, opening and closing 92-94, 178-238, 418-421, compression by hand 241-244, 352-355 | StorageModel, StoreLifeModel | badger's own options and garbage collection |
| types.go | codec 198-531, identifiers 555-652, short identifiers 59-127 | TypesModel, IdentModel | |
| util.go, util_io.go | wait group, striped lock, line limiting, tee, rolling buffer, `lockedBuffer` | SyncModel, UtilModel, ExecModel | |
| exec.go | environment 16-51, commands and their output 54-92 | UtilModel, ReachModel, ExecModel | the operating system's processes |
| file.go | 17-178 | FsModel, UtilModel, TmpModel, WalkModel | `WriteChmod` |
| module.go | 28-817 | ModuleModel, SemverModel, GoModModel, WorkModel, GlobModel, IdentModel | |
| static.go | 29-283, 305-427, 429-592, 621-661 | StaticModel, WorkModel, LoadModel, IdentModel | log output 596-616 |
| astexec.go | version filter 37-52, servers 75-95, update run 110-165, test loop 184-299 and 520-566, distribution of points 301-518, monitor 578-933, stability 937-1054 | SemverModel, GoModModel, BatchModel, MonitorModel, StableModel, TestRunModel, ServerModel, ExecModel, DirModel | starting of processes |
| asttweak.go | editor state 79-251, 386-415; client template 208-383; looking through a directory 208-309, 1167-1204; points of a function 417-441, 455-506, 1829-1863; returns 525-681, 1306-1530, 1532-1619, 1631-1680, 1715-1827; visible names 1226-1302; calls 702-1157; line insertion 1870-1977 | ModifierModel, PanicModel, InstrModel, VisibleModel, CallModel, RewriteModel, InsertModel, TemplateModel, DirModel, EditModel, ZeroModel, GoStmtModel, GlobModel, InterModel, EditLockModel | parsing and printing of files, the type checker |
| engine.go | comparison 349-624, run and options 756-1211, the data of a run 691-930, providers with a behaviour of their own 283-301, 627-656 | CompareModel, EngineModel, EngineDataModel, TmpModel, WalkModel, OutputModel | default providers that only delegate 249-253, 306-342 |
| report.go | 25-92, 110-196, 200-295, 298-798 (figures, texts and colours, the table), 798-829 | ReportModel, JsonModel, ChartModel, OutputModel | drawing and layout |
| mutation.go | 48-331 | MutationModel, ScriptModel, MutRunModel | logging 181-187, failures of writing the script file |
| cmd/report/main.go, cmd/flags.go | all | JsonModel, FlagsModel | package flag itself |
| compress.go | 11-37, as oracles with zstd's contract | StoreLifeModel | snappy 39-48 (not used) |
| cmd/ | nothing else | | |

## Findings

Behaviour of the code at this commit that the model brought up; those with a theorem name are proved.

**Wire protocol and client.** The child count of a struct is not checked against the remaining
input, so a 26-byte request makes the handler panic (C07_struct_count_unchecked_refuted), and up to 2^32
fields are allocated before anything is read. Map key texts are not limited by the maximum length. The
unwrapping loop never ends on `var x any; x = &x` (C08_unwrap_loop_diverges_refuted); two uses of one pointer are
reported as a cycle (C08_shared_pointer_called_cycle_refuted); cut slices and maps carry no mark
(C08_cut_slices_unmarked_refuted). The tenth byte of a varint loses its high bits.
Which entries of a large map are sent depends on the iteration order when keys are NaN or two dynamic types print alike, and on addresses when
keys are pointers (C63_nan_refuted, C63_type_name_refuted, C63_addresses_refuted).

**Storage.** The badger store loses empty blobs, misreads values that look like its split marker
and is corrupted by keys with its reserved prefix (C11_*_refuted); a load is two transactions, so it can mix two
saves (C13_torn_load_refuted); views "a" and "a;b" overlap (C10_nested_names_interfere_refuted).

**Result codec.** Identifiers of field trees have no end mark and ignore the value of inner nodes, so different
results can share a dictionary entry and come back changed (C15_*_refuted; nothing else is missing from them, C16_identifier_exact,
and trees of one shape are told apart, C16_same_shape_faithful); dots in names make flattened paths collide
(C14_dotted_names_collide_refuted); the encoding relies on an evaluation order Go leaves open
(types.go:398-409); a cyclic dictionary in the input recurses for ever. Frame identifiers put file, line and function side by
side without separators, so they can be confused outside .go files (C16_frame_key_refuted).

**Helpers.** `Join` with waiting `Take`s strands them (C17_join_with_waiters_strands_them_refuted). `TeeWriter()` without
writers panics, and writers that are all equally short go unnoticed (C20_*_refuted). Names starting with
`..` are taken to be outside their directory (C22_dotdot_names_rejected_refuted).

**Module analysis.** A function inserted into only is not marked at radius 0 (C25_pure_insertions_unmarked_refuted); modules listed
twice in a workspace lose changed functions (C24_workspace_duplicates_lose_changes_refuted); of several `init` functions only
the last counts (C52_earlier_init_changes_missed_refuted); pre-release go versions sort below everything, so modules requiring
them are skipped or kept wrongly (C27_go_prereleases_sort_lowest_refuted). `parseGoWork` joins the work directory with an
already absolute prefix for `...` patterns (C64_absolute_tree_refuted); what it finds for a relative one is absolute, so that a
workspace diff compares such a module with itself (C64_tree_compared_with_itself_refuted); a listed directory without go.mod is
given to the loader but not tested (C64_missing_module_loaded_refuted). Special
characters in a path take part in the patterns made from it: in `/w[1]` a use directive with a star finds nothing, in `/w[1` it is an
error (C95_work_refuted; without such characters C95_work). Likewise the client of a package in `/a/[p]` is not found
(C95_client_missed_refuted), and one in `/a/p` is taken for it, so that the package gets none and does not compile
(C95_client_elsewhere_refuted). With an opening bracket only, as in `/a/p[1`, Glob always
fails and the error is dropped (C95_client_unclosed). The directories of callers and of module
functions are collected apart (astexec.go:378, 457); a directory in both gets two goroutines, which may both write the client and note
its removal, so that Restore reports an error (C96_started_shared_refuted, C96_twice_refuted). Commit takes no file
lock: an edit under way while it runs is lost without an error (C97_commit_loses_refuted); the program calls it only when no
goroutine edits (astexec.go:210, mutation.go:114-118).

**Static analysis.** Functions sharing an identifier hide each other (C28_shared_identifier_misses_callers_refuted,
C54_shared_identifier_loses_calls_refuted); a test reaching a caller only through another test is not selected
(C28_test_through_test_not_selected_refuted); methods and names such as `Testify` count as tests, aliases of `*testing.T` do not
(C30_*_refuted). Packages behind one without type information are not part of the call graph
(C65_untyped_package_cuts_off_refuted).

**Monitor and stability.** A state message with an unknown point makes the wait never end (C35_unknown_point_hangs_refuted); results are
collected without waiting for requests in flight (C35_pending_requests_missed_refuted). Strings are stored without bound
and a short value may spell a long one's digest (C34_*_refuted). `|` and `:` in names confuse stack keys
(C39_separators_confuse_refuted); a GOPATH that is not clean makes slicing panic (C55_unclean_go_path_panics_refuted). A message that arrives after its
test has given the server back is recorded by the next test (C62_late_message_refuted), and a failing test does not stop the others but for the
first. The stability filter
only looks at top-level names, and a node losing all children becomes an empty leaf.

**Update run.** A new go.sum stays, a failed backup leaves files behind, the user's own `go.mod.bkp` is destroyed, a linked
go.mod is not restored and file modes are lost (C36_*_refuted).

**Source editor.** A stale `.bkp` prevents restoring, a half-made backup loses the original, a linked source
stays edited, a half-made client injection is never removed, a failed restore is forgotten (C37_*_refuted). Functions without a file
get no client (C38_no_file_no_client_refuted). Package name detection may parse a file another worker is
writing. Inserted lines can land inside multi-line literals, and brace-only lines count as code (C47_*_refuted).

**Points of a function.** A nil panic, possible in modules for Go before 1.21, is stopped by the panic point, which sends nothing
(C66_nil_panic_swallowed_refuted). Of several functions with one name in a file, such as `init`, the last gets the points of
all (C66_equal_names_refuted). The inserted statements call recover and panic and compare with nil by name. A parameter or package
level declaration with such a name mostly breaks the build (C93_hidden_does_not_compile, C93_hidden_nil_does_not_compile), but one that
fits is used instead: with a parameter `recover func() any` a function that returns panics (C93_hidden_recover_refuted), with a
parameter `panic func(any)` a panic is lost (C93_hidden_panic_refuted).

**Return instrumentation.** `return x, f()` reads `x` after the call although compilers may read it before
(C48_in_place_order_refuted). Returns inside labelled statements, select statements and the else of an else-if are not
instrumented (C48_every_return_reported_refuted); a function with an early return sends nothing when it falls off its end
(C48_end_reported_refuted); a parameter hiding the package of a result type makes the edited file fail to compile
(C48_type_names_refuted), and so does a variable named like its type before a `return nil`: `response := fetch(); …; return nil` in a function with result
`*response`, since only names occurring in the returned expression are looked at (C90_nil_after_variable_refuted, C90_hidden_type). The check for such names takes a conversion for a hidden type:
`return x == Flag(true)` with result `Flag` becomes a `bool` variable (C90_shared_name_refuted). A constant like `1 << 63` that is returned by name, or local and merely in scope, does not
fit the message (C90_large_constant_refuted). The return added at the end breaks the build when `new`, `nil` or the result type are hidden, or the package declares `byte` (C91_always_refuted). The names recorded at a return are those in scope there (C61_names_at_return) but for the receiver, which is not
captured; with `}}` at the end of a function names of an ended block are referred to and the file does not compile
(C61_end_refuted). A user variable named `ret0` shares the name shown for a result and is never compared (C84_variable_lost_refuted);
with a go directive before 1.21 the panic point swallows `panic(nil)` (C66_nil_panic_swallowed_refuted); of several declarations with one
name the last is edited (C66_equal_names_refuted).

**Call instrumentation.** Capturing the operands keeps the behaviour of calls evaluated first in a statement (C49_refines,
C49_realised). Elsewhere it does not: behind `&&` and `||` operands are evaluated and the message sent although
the call is not made, operands overtake what stands before the call, a loop condition sees its operands frozen and may never end,
a deferred call evaluates its operands when the function ends and can no longer recover, a receiver such as `s.mu` is copied, a
selection containing a call is evaluated twice, `target(x, set(&x))` may read `x` later than before (C49_short_circuit_refuted,
C49_order_refuted, C49_loop_condition_refuted, C49_defer_refuted, C49_recover_refuted, C49_receiver_copied_refuted,
C49_selection_twice_refuted, C49_in_place_order_refuted). Of several calls in a statement only the last outermost is
reported (C49_which_call, C49_every_call_refuted), none inside a labelled statement (C49_labelled_refuted). Package names are guessed from
import paths, so that `yaml` of `gopkg.in/yaml.v3` is captured as a value and the file does not compile
(C49_package_name_refuted). Not rewritten are calls in the condition of an
else-if and its else, in case expressions, in operands of a deferred call, in the channel of a send and in `x[target()]++`
(C78_missed_refuted); function literals in the operands of a rewritten call only when they happen to be visited again
(C78_literal_operand_refuted). Operands using variables of the init statement of an if, for or switch are captured before these are
declared, so the file does not compile (C78_declared_refuted; otherwise C78_declared). A literal inside a selected operand is copied with its message, so two
messages may have one id (C78_ids_differ_refuted), a second application draws further points (C78_idempotent_refuted), and function literals
inside nested blocks are processed several times, 2^n times at depth n (C78_visits_refuted). `target(g())` with
several results, a sum of untyped constants for a parameter of another type than their default type, and a constant such as
`math.MaxUint64` that fits no int do not compile either (C92_every_call_refuted; exactly which calls do: C92_exactly). A receiver that is a local
variable with the name of an imported package is not reported (C49_hidden_package_refuted). A rewritten go statement evaluates its operands in the new goroutine: if
they change meanwhile the function gets a later value and the message may tell yet another one (C94_later_value_refuted), and an operand
that panics ends the program where the calling function could recover (C94_panic_refuted). With operands that do not change the program
keeps exactly its runs (C94_nothing_new, C94_nothing_lost).

**Files of one directory.** The goroutines of a directory read each other's files while these are written: `os.WriteFile` empties a
file first, and a reader in between finds no package clause, so putting the client in fails and with it the run
(C79_detect_race_refuted). Until the client has been written only the first function of a file has type information, because the
messages put into it use names that are declared nowhere (C79_second_function); whether a returned identifier is shown once more as
`ret0` then depends on the schedule, before and after the update alike (C79_schedule_refuted), so a field may be missing on one side
for no reason. A file of a package that go does not build in that directory, for example an external test package, leads to a nil
dereference (C79_types_panic); the caller search never gives one (C79_no_panic). Also while the client is written there are two moments,
one per file, at which no file of the directory gets type information (C79_client_race_refuted). What that changes: literals returned as a
named interface type get a temporary only with type information; for interfaces written out it makes no difference (C79_same_without,
C79_same_without_refuted).

**Identifiers.** A method is identified by its receiver as it is written, so after a renaming of a type parameter (`*Set[T]` to `*Set[E]`), or
of a value to a pointer receiver, a change of the method is not found (C82_receiver_rewritten_refuted). The declared init functions of a package and
its initializer share an identifier, and which one the search starts from is left to the order of a map (C82_init_order_refuted).
extractFunctions overwrites the error of the printer with the result of the next function, so only a failure of the last function of a file is
reported and the others are dropped (C82_error_of_last, C82_print_error_lost_refuted). ExtractModuleFunctionsFromPackages keeps documentation in
the definitions, unlike the comparison, and has no caller in the repository (C82_documentation_refuted).

**From value to report.** What a report says is exact for values within the limits whose parts have distinct names without dots and in
which no address is met twice (C81_recorded, C81_reported, C81_noticed, C81_unchanged). Outside of that it is not: types are not kept, so an
int that becomes a string of the same text is not noticed (C81_types_refuted), nor a nil map that becomes an empty one (C81_nil_refuted); and
two entries of a map that hold the same pointer are shown by the order of iteration, the first one as the value, the second as a cycle, so the
same state differs between two runs (C81_map_order_refuted). The repeated runs before the update remove such a field only if the order
happened to differ among them.

**Marks of edited functions.** A function that has its return points is marked in its doc comment. The doc made for a function that had
none is not among the comments of the file, and go/printer writes only these; so the mark is lost at the commit unless the file has no
comment at all, and a second instrumentation puts every return point in again (C80_once_refuted). The engine commits each file once
per version, so only an extension that instruments again meets this. A doc comment that mentions the mark silences its function
(C80_mentioned_refuted), and ids running out inside a function leave points nobody was told of (C80_error_refuted).

**Comparison and engine.** Calls, callers and fields that exist only after the update are not reported, tests lost by the update
are ignored, a small speed-up hides a large slow-down (C41_*_refuted); two digests with the same last four bytes read alike
(C40_text_tells_values_apart_refuted). A run may succeed without any report, a provider is not cleaned up when its own call fails, the
early report says zero changed functions (C42_*_refuted). The chart path is unchecked when a JSON path is given and a second
preparation repeats the targets (C43_*_refuted); targets the project does not require are skipped silently
(C56_missing_target_is_error_refuted). The time multipliers are multiplied in 32 bits.

**Temporary copy.** A module cache inside GOPATH but elsewhere than `pkg/mod` is looked for in the wrong place, a linked
project root is linked again instead of copied, file modes are lost (C57_*_refuted). A TMPDIR inside the project makes the
copy walk its own output; modules outside the project directory are not copied.

**Walks.** CopyDir returns the error of its walk without waiting, so files are still being copied after it has returned
(C74_copy_quiet_refuted); WriteChmod of a directory without search permission fails or works by which task is first (C74_chmod_race_refuted).

**Servers.** A monitor server counts as started when 100 ms passed without an error: tests may run while it does not listen yet
(C73_all_accepting_refuted) or after it failed (C73_late_failure_refuted). A request longer than 20 s outlives the analysis
(C73_quiet_refuted). Port 65535 passes validation, but with two servers the second port does not exist
(C73_port_range_refuted). StopOnProcessOrTimeout without a positive timeout may wait forever, and reports a timeout for a
process that is gone when it looks after the deadline (C73_wait_forever_refuted, C73_wait_gone_refuted).

**Mutation run.** RunMutationTesting returns at a changed function without a bitmap while goroutines still mark files: a mark made after the
restore stays in the source (C75_early_return_refuted).

**Names in messages.** The prefixes of added variables are cut to ret, rec, arg and recv in messages (asttweak.go:1670-1680), so a variable of the
program called ret0 and the first result are sent under one name and only the result is stored; likewise a receiver called arg0
(C84_variable_lost_refuted, C84_receiver_lost_refuted). A hook whose
map has an id of a project function's point takes that function's values, hooks being looked up first (C85_hook_takes_values_refuted).

**Order of calls.** Calls are paired in the order of time before the update (computeStableFrames sorts, astexec.go:949-958) and in the order they were
recorded in after it (engine.go:428-450 does not sort), so calls handled in another order by two connections are reported as differences although all
values by time are the same (C86_order_refuted).

**A store used before.** Nothing clears the store at the start of an analysis, and CompareTestResults goes through all keys it lists. With
SingletonStorageProvider, or a path given a second time, the results of an earlier analysis are reported again for tests that were not run now
(C87_old_results_refuted). DefaultStorageProvider also hands out the same store a second time, although the first run closed it
(engine.go:633-647, C88_store_is_open_refuted).

**Closing removes the directory.** badgerStorage.Close is os.RemoveAll of the path given (storage.go:418-421), so a DefaultStorageProvider with a Path of
the user's own loses everything that was in that directory (C89_directory_kept_refuted); closing a view closes and removes the whole store
(storage.go:92-94); a second Close of the same store takes the files of the next one at that path (C89_closed_twice_refuted). With badgerCompression set
to None, as the comment at storage.go:165 considers, every split value would be loaded with as many zero bytes before it as it has, because the buffer
is made with a length and DecodeAll appends (storage.go:353-354, C89_by_hand_refuted); with the constant as it is the branch is not reached.

**The error of the module analysis.** Whatever AnalyzeModuleChanges fails with, if the text contains the name and a version of a module looked at, Run
returns "module … not found on disk, run: go install …" without the error (engine.go:787-802): a syntax error in a module that is there is reported so
(C88_error_kept_refuted), and a name that is the beginning of another names the wrong module (C88_module_is_missing_refuted).

**Whole analysis.** A restore of the first run that fails is only logged; the second run takes the backup that is left for its own, registers
nothing to undo, the analysis returns no error and the sources stay edited (C83_failed_restore_refuted). "Test Execution Monitor started" is
logged before the error of the start is looked at (astexec.go:88-91).

**Report files.** One path for both reports returns nil and leaves only the charts (C76_same_path_refuted). Time changes are written in
the order of a map: the same results can give different JSON files (C76_same_report_refuted). An empty chart path is always an error, and
it comes at the end of the whole run, after the JSON report was written, while an empty JSON path is silently skipped (C76_no_paths).

**Captured output.** Standard output and standard error of a captured command share a buffer but not a goroutine: a line of one may be torn by the
other, also the summary line of the mutation tool, whose counts are then not found (C77_summary_found_refuted; only when the tool is told to
print more). The comment in util_io.go:109 that returned bytes stay valid is false after Reset (C77_view_lost_refuted; nobody calls Reset after
Bytes today). A "FAIL / exit status 1" at the very end of a test's output is not removed: its newline is trimmed first (C77_clean_end_refuted).
A caller's text in the table is cut at 64 bytes, not characters, so it may end inside a character (C45_text_cut).

**Command line.** `-tmpcopy false` leaves the copy on and drops all later flags without a word (C72_false_refuted); a custom flag whose type is none
of the three is left out (C72_custom_defined_refuted); a GOPATH of several directories gives a module cache that is in none of them (C72_cache_refuted); the chart
command writes a PNG whatever the file is called (C72_picture_kind_refuted).

**Report.** "% slower" is printed negative (C71_slower_sign_refuted); without time before the update "No time recorded" hides the time after it
(C71_no_time_refuted); functions that cannot be watched count as covered (C71_untracked_covered_refuted); impact and coverage may show 100% with
functions left (C71_impact_full_refuted); with no mutations the label is not a number; the table is not determined by the results when several tests tie, nor is the text of a row;
"(N more field differences)" counts callers (C45_*_refuted); a direct module listed twice leaves no root
(C46_single_direct_name_refuted); counts above 2^53 and field names that are not UTF-8 do not survive the report file
(C70_large_counts_refuted, C70_equal_after_cleaning_refuted), nor does a key of the report that an extension writes
(C70_extension_in_the_way_refuted); times of tests with equal identifiers are merged in the charts (C58_times_always_kept_refuted). Cutting a text at
64 bytes may split a character.

**Mutation testing.** `SquashedCount` is the number of survivors if the tool counts as its script says
(C50_killed_reported_refuted); `--match` also selects functions whose name contains a changed one's
(C50_only_changed_refuted); bitmap entries count lines of the comment-free printed definition while directives are placed by
source line (C50_changed_lines_mutated_refuted); a file named like the backup is lost (C60_other_files_kept_refuted). Paths are put between double quotes, which run a command substitution in them
(C67_quotes_refuted); the script for all tests uses them without quotes, so it moves other files, or none, when there are blanks
(C67_all_unquoted_refuted); packages with blanks or pattern characters are not tested as meant (C67_packages_exactly). A mutant that does not compile
makes `go test` exit with 1 and so counts as noticed.

**Client and servers.** A directory that holds only test files is refused a client (C68_only_tests_refuted), so analysis stops if a
caller is in such a package. The rewriting of the template relies on how its constants are written: a spec repeated by the next one would
change both (C68_repeated_refuted), and a variable beside another without an expression would leave a hole (C68_hole_refuted). The port
in the injected client is 0, so a test that starts another program of the module with an emptied environment gets no report from
it (C69_cleared_environment_refuted). The port of a server bound to an address with colons would be read as 0 (C69_ipv6_port_refuted); the host is
fixed, so this does not occur.
