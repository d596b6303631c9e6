# Formal model of C5T/Current in Rocq (Coq 8.16.1)

Properties: `properties.jsonl`. Status per property and theorem names: `MANIFEST.json`.
Mutation experiments: `seeded/LOG.jsonl`. Sources: `rocq/theories/*.v`.

## 1. Layout and conventions

* `*_Model.v` – executable Gallina models. Every definition has a comment with the file and
  lines of `/repo` it models and the simplifications made.
* `*_Spec.v` (or a `Spec` section at the top of the `Props` file) – the independent, small
  specification a reader compares with the English text.
* `*_Proofs.v` – lemmas.
* `*_Props.v` – only the property theorems (`exact lemma`), the non-vacuity `Example`s and
  `Print Assumptions`.
* Theorems ending in `_refuted` show by a concrete execution of the faithful model that the
  English claim is false of the code as written; `_partial` marks a proved part of a property.
* Concurrency is modelled as labelled transition systems whose atomic steps are the critical
  sections (mutex-protected blocks) and the atomic operations of the code; theorems quantify
  over all finite interleavings (lists of steps / reflexive-transitive closure).
* Integers are unbounded `N`/`Z`, unless a wrap-around or width matters for the property; then
  the wrap is written explicitly (`mod 2^64`, 16-bit base64 buffers, 8/16/32-bit TSV fields...).
* Undefined behaviour and thrown exceptions are explicit outcomes of the model.

## 2. Plan per property

| id | what is modelled | how it is proved |
|----|------------------|------------------|
| C01-C04 | `MemoryPersister` (memory.h) as a state machine over Publish/PublishUnsafe/UpdateHead and range queries | invariant over all op sequences; refinement to an append-only list; lower/upper bound search against a filter spec |
| C05-C09 | `FilePersister` (file.h) at byte level: the file is a byte list, the in-memory index arrays are kept beside; replay parses bytes | forward simulation file ~ memory; `replay (bytes written) = state`; prefix-cut analysis for crashes; refutations by witnesses |
| C10-C13 | `SubscriberThreadInstance::ThreadImpl` (stream.h) interleaved with publishers and head updates, as an LTS | inductive invariant on the trace of subscriber callbacks |
| C14 | `blocks/ss/pubsub.h` type filter | induction on entries |
| C15 | `PubSubHTTPEndpointImpl` (pubsub.h 123-473: parameter parsing, entry, raw and head callbacks, termination) and `ServeDataViaHTTP` (stream.h 475-601), against a stream anyone publishes to concurrently | induction on the delivered entries against a declarative range (first and last entry, `since`, `recent`, `n`, `period`, `stop_after_bytes`); six refutations |
| C16 | `RemoteStreamSubscriber::PassChunkToSubscriber` (replicator.h 128-167): the accumulator over chunks | splitter state is a function of the bytes so far: two divisions of the same bytes give the same lines |
| C17 | checked and unchecked `PassEntryToSubscriber`, `StreamReplicatorImpl` (replicator.h 178-236, 442-491), reconnects at any point | prefix invariant over all sequences of connect / chunk / break / retry |
| C18, C64 | `MasterFlipController` and `MasterFlipRestrictions` (replicator.h 496-867) for two controllers that may follow each other; the flip protocol as an LTS | authority invariant over all interleavings; three refutations; the key-guessing delay by induction on attempts |
| C19 | publisher ownership of stream.h / stream_impl.h: `BorrowPublisher`, `BecomeFollowingStream`, `BecomeMasterStream` over the borrowing layer | LTS invariant; the deadlock between a role change and a Publish is exhibited |
| C20-C22 | `owned_borrowed.h` registry with mutex-level atomic steps | LTS invariant; refutations for move-assignment and late callbacks |
| C23-C26 | the storage containers (dictionary, one-to-one, one-to-many, many-to-many) over finite maps | representation invariant + refinement to abstract map/relation |
| C27-C30 | mutation journal, transaction policy, stream persister replay | rollback as exact inverse; replay = live state; case analysis on the policy |
| C31-C34 | `mmq.h` circular buffer as LTS | ghost-history invariant; refutations by interleavings |
| C35 | `mmpq.h` | refinement to a sorted multiset; refutation for equal timestamps |
| C36 | `chrono.h` Now() CAS loop | LTS invariant over all interleavings |
| C37-C38 | base64.h with 16-bit buffer | bit-level invariant; induction by groups of 3 |
| C39-C41 | url.h | induction; refutation for bytes >= 0x80 |
| C42-C43 | split.h, join.h, group_by_lines.h | induction |
| C44 | distance.h | memo-free recursion = minimal edit script length |
| C45, C57, C58 | HTTP message parser / chunked sender of server.h over arbitrary reads | parser state depends only on consumed bytes; refutations for hostile chunk sizes |
| C46-C47 | headers.h with a heap of header cells (dangling pointers visible) | invariant for same-spelling use; refutations |
| C48 | compact_tsv.h | writer/reader simulation |
| C49-C51 | typesystem JSON over a type universe, JSON trees | induction over types; refutations |
| C52 | crc32.h | table = bitwise by finite sweep, then induction |
| C53 | waitable_atomic.h | LTS invariant |
| C54 | ot.h | refinement to zipper edits; UB outcome |
| C55 | fixed_size_serializer.h | decimal digits |
| C56 | posix_server.h FindHandler/Register/UnRegister, `URLPathArgs` (url.h) | induction on path components; table updates as finite maps |
| C59, C60 | `Trim` (util.h) and key-value splitting (split.h) | induction |
| C61 | the index `Publish` of mmq.h returns, against the index the consumer sees | LTS invariant; refutation for a slot reused in between |
| C62 | cookies in headers.h | parser after composer |
| C63 | ParseJSON into an existing object (typesystem/serialization/json) | induction over types: the destination's old value does not matter |
| C65 | reconnecting followers: `ThreadImpl` (replicator.h 287-333) with breaks, terminate ids and idle reconnects | invariant over runs of connections |
| C66 | the storage over a stream over the byte-level file persister | composition of C27-C30 and C05-C09; every prefix of an append |
| C67 | REST handlers (api.h, api_types.h, structured.h) as two-step transactions | functional specification of each verb; lost-update theorem over all interleavings of requests |
| C68 | pages of hypermedia.h with 64-bit arithmetic | following the links, by induction on what is left |
| C69 | posix_client.h `Go` with redirects, `MakeRedirectedURL` | the chain of URLs as an inductive relation; termination by counting |
| C70 | `UTF8StringLength` | induction over well-formed UTF-8 |
| C71 | fncas: recording of functions into nodes and their evaluation, the arithmetic being a parameter (`Fncas_Model.v`); user code as straight-line programs (`Fncas_Spec.v`) | what a node denotes, by induction on its index; a bound on the turns of the evaluation loop; recording by induction on the program |
| C72 | fncas: differentiation and gradients, over the real numbers | each rule of differentiation against `derivable_pt_lim` of the standard library; induction on nodes, for arbitrary stacks, memories and derivatives already known |
| C73 | JSON schema inference: one document, merging, files, printing of types (`Infer_Model.v`), with ParseJSON of `Json_Model.v` | a schema that describes the documents (C74) gives a type all of them parse into, by induction on the schema |
| C74 | the same | a specification of what a schema says about a list of values found at a position (`Infer_Spec.v`); merging concatenates the lists; success by induction on the schema, uniqueness and invariance under permutations |
| C75 | the whole SHA-256 class: words, rounds, buffer, padding, digits (`Sha256_Model.v`) | the standard written down on strings of bits, constants as roots of primes (`Sha256_Spec.v`); rounds equal by rewriting on 32-bit words, the buffer by an invariant on the bytes given so far |
| C76 | names, rotations, CalculateTypeID, the cache of a thread, the traversal with its placeholder for types being calculated; both orders of evaluating constructor arguments (`Reflection_Model.v`) | types closed under reference (`Reflection_Spec.v`): definedness by the number of types missing from the cache, independence of history by an invariant on the caches, renaming by a simulation, types without recursion by a rank; the model reproduces the project's golden TypeIDs |
| C77 | ReflectType, the traversal of records and AddType | depth-first search with a set of types in progress: an invariant on entries, order and edges; the model reproduces the order of the project's golden file |
| C78 | FillStructTM, FormatDateTime, DateTimeStringToTimestamp, ParseHTTPDate with glibc's gmtime_r, timegm, strftime and strptime for the conversions used (`Date_Model.v`) | a calendar that counts days one by one from 1 January 1970 (`Date_Spec.v`); the arithmetic of gmtime equals the calendar by induction on days, timegm inverts it; the formats are inverted by strptime symbolically |
| C79 | SelfModifyingConfig over a map of files; writes that fail, loudly or silently; writing byte by byte for processes killed in between (`Config_Model.v`) | invariant over histories of events against a list of saved configs (`Config_Spec.v`); names ordered by the order of calendar fields; crash points by splitting the list of steps |
| C80 | the x64 compiler: opcodes as bytes, jit_compile_node, f_ and g_compiled_x64_native_jit (`Jit_Model.v`); the processor and the ABI are a separate specification (`X64_Spec.v`: decoding from bytes, byte memory with permissions, faults, stack alignment, clobbered registers) | decode-of-encode lemmas per opcode, a simulation invariant per emitted piece, induction over the depth-first search of the generator (nodes marked before they are compiled are ancestors only); composed with C71; the bound is shown necessary by running the bytes for node 2^28 - 16 |
| C81 | ripcurrent.h: diagrams as trees of blocks and pipes, which queue a block writes to and which block takes a message as in the code's recursion; every pipe is the priority queue of `MMQ_Model.v` plus its counters; threads interleaved at the critical sections (`RipCurrent_Model.v`); the diagram's wires, the calls a block owes and the observations are defined apart (`RipCurrent_Spec.v`) | static lemmas relating the recursion to the wires; an invariant on states (queues sorted, routed, counted) and one on traces (sent = delivered ++ queued per sender); a clock invariant for "no error"; induction along the diagram for determinism; a four-step schedule refutes the two-source case |
| C82 | the same, with the order in which the members are destroyed and the waiting of ~MMPQWrapper | the counters account for every message in flight, so a queue that has processed everything is idle; progress by going downstream to a consumer that can move; termination by a lexicographic measure along the order of destruction; two stuck states for schedule() |
| C83 | BlockingRead, BlockingWrite with the answers of recv and send as arguments (`Tcp_Model.v`); the client that reads until an exception is in `Tcp_Spec.v` | case analysis per call, induction over the calls; the C casts are modelled (int of a 64-bit count); four refutations of what the comments promise |
| C84 | SocketHandle as histories of create, accept, move, assign, use, destroy over any number of handles; the trace of descriptor events is what the operating system sees | invariant linking the trace, the open descriptors and the owners; a second invariant (what is open is owned) under three conditions, each shown necessary |
| C85 | ReserveLocalPortImpl::DoIt, with the shuffle and the outcome of every bind as arguments | a closed form of the list of ports tried, by induction around the circle; the refutation instantiates it |
| C86 | ParseFlags and the conversions, with `istringstream >> x` modelled for integers and characters (`Flags_Model.v`); the grammar of command lines is an inductive relation (`Flags_Spec.v`) | soundness and completeness of the loop against the grammar, by induction on the number of arguments; the grammar is unambiguous; decimal text from `Dec.v` |
| C87 | Karl's HTTP handlers, its state update thread and its constructor as a labelled transition system over the storage's transactions and the sections under the cache's mutex (`Karl_Model.v`), with time as part of the state | inductive invariants over all executions; ghost events in the trace tie the cache to what was heard; the bound 2T+1 under the assumption that the thread takes no time; the refutations are concrete executions |
| C88 | ServeSnapshot with its map of indexes, and BuildStatusAndRespondWithIt as the fold over the entries of the window and the two nested loops (`KarlView_Model.v`) | closed forms of the four containers by induction on the window; the loops by the order of the names; invariants of the map of indexes over all sequences of operations |
| C89 | WaitUntil step by step, with the test of the predicate and the sleep apart and notifications still to be made counted (`TermSignal_Model.v`); the bulk notifier as a set | an inductive invariant over all interleavings; termination by following the thread alone from each of its points; the bulk notifier by induction on the operations |
| C90 | the three optimizers and the line search, over a record of the operations on double_t (`Optimize_Model.v`); IEEE binary64 (Coq's SpecFloat) and the rationals as instances (`Optimize_Spec.v`) | induction on the remaining steps with the invariant "a point with its value, not worse than before"; the order of the doubles by a key of three integers; the refutations are computed in binary64 |
| C91 | the objects as a map from names to their kind and captured callbacks, and all their operations, including an object with itself (`Deleter_Model.v`) | an inductive invariant (no callback in two places) over all sequences of operations; a per-operation theorem that nothing is lost; sums by induction on the expression |
| C92 | ReadFile over the bytes of the file, with std::getline and Split as modelled before (`Csv_Model.v`); the files to be read are described separately (`Csv_Spec.v`) | closed form of the loop by induction on the lines; lines and cells of the described files through C42 |
| C93 | the keepalive thread, any number of calling threads and the destructor, as a transition system over the accesses to the shared flags, with both mutexes, the condition variable (with spurious wake-ups and the gap between the predicate and the sleep) and time (`Claire_Model.v`) | an inductive invariant of sixteen clauses (who holds which mutex, what the flags say, why a notification cannot be missed), a second one for waiting calls, a third for the safe order of calls; per-call invariants over the rest of the run; ends by explicit schedules from every reachable state |
| C94 | the unique_ptr and the pointer of each Optional over a heap, with use after free, double free and reading unwritten values as undefined behaviour (`Optional_Model.v`); what an optional should have as a map of values (`Optional_Spec.v`) | refinement: a relation between heap and values (own addresses, each owned once, none leaked) kept by each of the 19 operations, by induction over the program; the comparisons by cases |
| C95 | variants as trees with the type lists; the overload each construction and assignment resolves to, CopyFrom, MoveFrom, the dispatch by type in the source's list, and copy constructors that go through it recursively (`Variant_Model.v`); what a variant should hold afterwards (`Variant_Spec.v`) | an invariant (well-typed at every depth) kept by every operation, moves out of inner variants included; equality of the model and the specification under it, by induction over the program |
| C96 | the trie of each thread as nodes by path, the stack, Now() as a clock that advances with each call, each method under the mutex as one step (`Profiler_Model.v`); where each thread has been for how long (`Profiler_Spec.v`) | an invariant relating each node's total and entry time with the history, kept by every step; the sums by induction over the history |
| C97 | chunks as address and length over a memory that does not change, memcmp, the objects of the program and the map of ChunkDB with the objects it points to (`Chunk_Model.v`); strings and a set of strings (`Chunk_Spec.v`) | memcmp by induction over the length; refinement of programs by an invariant (keys distinct, each the chunk of its object), by induction over the program |
| C98 | blocks as trees, EvalImpl of each in continuation-passing style with exceptions identified by the type of block, the statics the operators keep by type, annotation (`Nlp_Model.v`); the list of results and an inductive grammar (`Nlp_Spec.v`) | evaluation equals calling back with each result, by induction over the block with an invariant on what callbacks throw; the grammar by induction; the types of the values by induction over the grammar; statics by an invariant |
| C99 | what is printed as tokens, the statuses, the objects, and the steps threads take outside and under the mutex (`Progress_Model.v`); a terminal with a screen of finite height that scrolls, and what is to be seen of a list of statuses (`Progress_Spec.v`) | what one update does to the screen by lemmas for each kind of output, by induction over the text; an invariant over the sequence of operations, and of steps of threads |
| C100 | the function over real numbers, its loop over integers (`Rounding_Model.v`); the number a text stands for (`Rounding_Spec.v`) | the number the digits stand for by induction over the loop for any position of the point; the magnitude by properties of ln and exp |
| C101 | the keys in the nodes and the map of indexes of AsDOT, with the lines it writes (`Graphviz_Model.v`); reading of quoted strings, and what a list of lines says (`Graphviz_Spec.v`) | round trip of the escaping by induction; the keys of distinct nodes are their places, by induction, and so are their indexes |
| C102 | the scan for groups, the names and indexes, the text without names (`Regex_Model.v`); trees of groups with the text of each and the groups that capture (`Regex_Spec.v`) | by induction over the trees, for any text after them |

## 3. Trusted base

* Coq 8.16.1's kernel, with its VM for `vm_compute`. No axioms of our own, no `Admitted`, no functors, no module types.
* `Print Assumptions` runs in the build after every property theorem. Every theorem prints "Closed under the global context",
  i.e. rests on no axiom at all, except those listed in 3.1.
  (The verdict lists seven `Coq.ssr.ssrunder.Under_rel.*` parameters: they come with the ssreflect plugin std++ loads, and no theorem uses them.)
* Libraries: Coq's standard library, and std++ (finite maps, lists, decisions) in the files that import it.
* The reading of the C++ code. Nothing here is extracted from, generated from or executed against `/repo`: that a definition says what
  the cited lines do is for the reader to check. The comment on each definition cites file and lines and states the simplifications (SIMPL).
* Assumed of the environment, as hypotheses of theorems or as documented model choices: entry codecs are records (`codec`) with the
  laws needed as explicit premises (`codec_ok`: parsing inverts serialising, no newline in the output; both are shown of a concrete codec in
  the examples); mutexes, condition variables (with spurious wake-ups) and sequentially consistent atomics; C++ standard containers
  behave as lists and finite maps; iostream number formatting is decimal (`Dec.v`).

### 3.1 Theorems that rest on axioms

Three groups. The theorems on derivatives over the real numbers, in `FncasReal_Props.v`:
`C72_gradient`, `C72_unit_step_throws`, `C72_polynomial_time_refuted` (and the examples beside them). `Print Assumptions`
lists, for each of the three, exactly these axioms of Coq's standard library (`Reals` and what it rests on):
`ClassicalDedekindReals.sig_not_dec`, `ClassicalDedekindReals.sig_forall_dec`,
`FunctionalExtensionality.functional_extensionality_dep`, `Classical_Prop.classic`.
And `C80_many_nodes_refuted` in `Jit_Props.v` (its counterexample is built on Flocq's IEEE doubles, whose proofs use the reals): the same four axioms of the standard library. The other theorems of C80 are closed. Flocq itself adds no axiom.
And the theorems of C100 in `Rounding_Props.v` and `Rounding_Props2.v`, which are about real numbers: the same four axioms.

## 4. What is modelled, file by file

| Coq file | source in /repo |
|---|---|
| Base, Dec, Codec | bytes, decimal printing and parsing (`std::to_string`, `operator>>` of integers), the codec interface of entries |
| Persister_* | blocks/persistence/memory.h, the public wrapper blocks/ss/persister.h, blocks/ss/idx_ts.h, exceptions |
| FilePersister_* | blocks/persistence/file.h: the whole file format, open/replay, publish, head updates, iterators, per-iterator file reading |
| Stream_* | stream/stream.h subscriber threads, stream/stream_impl.h publishing, blocks/ss/pubsub.h type filter, bricks/util/waitable_terminate_signal.h |
| PubSub_* | stream/pubsub.h, stream/stream.h ServeDataViaHTTP |
| Publisher_* | stream/stream.h and stream_impl.h: ownership of the publisher |
| Replicator_*, Reconnect_* | stream/replicator.h subscribers, stream replicator, reconnecting loop |
| Flip_* | stream/replicator.h MasterFlipController, MasterFlipRestrictions |
| StorageContainers_* | storage/container/{dictionary,one_to_one,one_to_many,many_to_many}.h |
| StorageTxn_* | storage/base.h journal, storage/transaction_policy.h, storage/transaction.h, transaction_result.h, storage/storage.h, storage/persister/stream.h |
| StorageFile_* | the composition of the above with the file persister |
| StorageRest_*, Pages_* | storage/api.h, api_types.h, rest/structured.h, rest/simple.h; rest/hypermedia.h |
| MMQ_* | blocks/mmq/mmq.h, blocks/mmq/mmpq.h |
| Owned_* | bricks/sync/owned_borrowed.h |
| WaitableAtomic_* | bricks/sync/waitable_atomic.h |
| Time_* | bricks/time/chrono.h Now(), SetNow() |
| Http_* | bricks/net/http/impl/server.h message parser and chunked sender, bricks/net/tcp/impl/posix.h BlockingRead |
| Headers_* | bricks/net/http/headers/headers.h |
| Url_*, Redirect_* | blocks/url/url.h; blocks/http/impl/posix_client.h |
| Routing_* | blocks/http/impl/posix_server.h |
| Json_* | typesystem/serialization/json/*.h at the level of rapidjson documents |
| CompactTSV_* | compact_tsv/compact_tsv.h |
| OT_* | utils/operational_transformation/ot.h |
| Strings_*, Utf8_*, EditDistance_*, Base64_*, CRC32_* | bricks/strings/{split,join,util,group_by_lines,fixed_size_serializer,distance}.h, bricks/util/{base64,crc32}.h |
| `fncas/fncas/base.h`, `node.h`, `differentiate.h` | `Fncas_Model.v` | nodes, recording, evaluation with its cache, differentiation, gradients; not: rounding in derivatives (C72 is over the reals), printing, `approximate_gradient` |
| `fncas/fncas/jit.h`, `optimize.h` | - | not modelled: compilation of functions, numerical optimisation |
| `utils/json_schema/infer.h` | `Infer_Model.v` | inference from documents, merging, ignored paths, the printed types and names of structs; not: value histograms, the TSV report, comments in the output |
| `bricks/util/sha256.h`, `3rdparty/stephan-brumme/sha256.h` | `Sha256_Model.v` | all (little-endian branch) |
| `typesystem/reflection/types.h`, `typesystem/reflection/reflection.h`, `typesystem/typename.h`, `typesystem/primitive_types.dsl.h`, `bricks/util/rol.h` | `Reflection_Model.v` | TypeIDs, names in the format Z, the records of types; not: other name formats, visiting fields of values, the names of super classes and template arguments in records |
| `typesystem/schema/schema.h` | `Reflection_Model.v` | StructSchema (AddType and its traversal); not: the printers of the languages, namespaces, evolvers |
| `bricks/time/chrono.h` (160-300), `bricks/net/http/headers/headers.h` (58-78) | `Date_Model.v` | dates in UTC; the C library's conversions used (%a %A %b %d %e %y %Y %H %M %S %Z and literals) are modelled after glibc; not: local time |
| `blocks/self_modifying_config/config.h`, `bricks/file/file.h` (ReadFileAsString, WriteStringToFile) | `Config_Model.v` | all; JSON is a pair of functions, the file system a map |
| `fncas/x64_native_jit/x64_native_jit.h`, `fncas/fncas/jit.h` (775-1020) | `Jit_Model.v`, `X64_Spec.v` | the generated bytes and their execution; not: mmap/mprotect (whose failure is tested against NULL and not MAP_FAILED), the text back ends (NASM, CLANG) of jit.h, two threads calling one compiled function (they would share its heap) |
| `ripcurrent/ripcurrent.h` | `RipCurrent_Model.v` | `|`, `+`, Run, emit/post/schedule/head, the queue of a pipe with its counters, Join and the destruction order; user code is any function of the messages received, one thread per source block; not: MarkAs/usage marks, Describe, the RIPCURRENT_* macros, `ripcurrent/types.h` beyond the error handler |
| `bricks/net/tcp/impl/posix.h` | `Tcp_Model.v` | BlockingRead, BlockingWrite, the ownership of descriptors (SocketHandle, Socket, Connection), ReserveLocalPort; not: name resolution, addresses, the Windows and Apple branches, ClientSocket's connect |
| `bricks/dflags/dflags.h` | `Flags_Model.v` | ParseFlags, the conversions; not: float and double flags, the text of --help, the injection of another registerer for tests |
| `karl/karl.h` | `Karl_Model.v` | the registry: StateUpdateThread, the transactions of AcceptKeepaliveViaHTTP, the end of the constructor, the destructor; not: nginx, the parsing of requests, the tables of servers and builds, the mocked-time variant |
| `karl/karl.h` (pages) | `KarlView_Model.v` | ServeSnapshot, the contents of the fleet view; not: URLs, build information, HTML and SVG rendering, the choice of the format, the parsing of the window |
| `bricks/util/waitable_terminate_signal.h` | `TermSignal_Model.v` | all; one waiting thread, the caller's mutex as "the condition changes only while the thread does not hold it" |
| `fncas/fncas/optimize.h`, `fncas/fncas/mathutil.h` | `Optimize_Model.v` | the three optimizers, NoImprovement, Backtracking, the vector functions; not: logging, statistics, the additional values of ObjectiveFunctionValue |
| `bricks/util/accumulative_scoped_deleter.h` | `Deleter_Model.v` | all; not: callbacks that throw, are null, or touch the object calling them |
| `utils/csv/csv.h` | `Csv_Model.v` | all; FromString of a cell as a function that does not fail |
| `karl/claire.h` | `Claire_Model.v` | Register, ForceSendKeepalive, SetKarlLocator, StartKeepaliveThread, KeepaliveThread, the destructor; not: the contents of keepalives, the status page, the callbacks, status_mutex_ |
| `typesystem/optional.h` | `Optional_Model.v` | all constructors, assignments, accesses and comparisons of both, for POD and other types; not: what is inside the objects, exceptions thrown by copying them, accessing an Optional that is inside the object it holds |
| `typesystem/variant.h`, `bricks/template/rtti_dynamic_call.h` | `Variant_Model.v` | construction, assignment, Construct, Call, Exists, Value, with types checked at compile time; not: VARIANT_CHECKS_AT_RUNTIME_INSTEAD_OF_COMPILE_TIME, the constructor that bypasses the check, exceptions from the copy constructors of structs, functions that do not take all types |
| `profiler/profiler.h` | `Profiler_Model.v` | EnterScope, LeaveScope, Reset, the times and entries of the report; not: the profiler's own overhead, ratios and order in the report, the macros |
| `bricks/strings/chunk.h` | `Chunk_Model.v` | all functions of Chunk, UniqueChunk and ChunkDB; not: the values of the hash (the cast of a negative double to size_t in it is undefined), buckets, memory that is freed |
| `nlp/nlp.h`, `nlp/nlp_schema_begin.inl` | `Nlp_Model.v` | EvalImpl of all blocks, the operators and their statics, matching, annotation; not: splitting by whitespace (see C37-C60), names and debug info, the order of types in TypeListUnion, empty Variants given by Maps |
| `blocks/xterm/progress.h`, `blocks/xterm/vt100.h` | `Progress_Model.v` | DoUpdate, DoClearString, the constructors and the destructor, MultilineProgress with and without threads; not: the bytes of escape sequences and of UTF-8, moving of Status objects, wide characters, rows that wrap, ends of lines in a status, two threads on one line |
| `bricks/strings/rounding.h` | `Rounding_Model.v` | RoundDoubleToString over real numbers with exact log, pow, * and +; not: the rounding of doubles in these, and 16 digits or more, which the code asserts against |
| `bricks/dot/graphviz.h` | `Graphviz_Model.v` | Escape, and the nodes and edges of AsDOT; not: parameters, titles, groups, labels in HTML, AsSVG, graphs to which a node was added twice (which changes keys that are in a map) |
| `bricks/strings/regex.h` | `Regex_Model.v` | which groups NamedRegexCapturer finds, their names and indexes, the regular expression given to std::regex; not: matching, character classes with a parenthesis in them, IterateByRegexMatches |

Concurrency: where the code takes a mutex the step is the critical section; where it does not, the step is the single access. Wait loops
block until their predicate holds at a step at which they are scheduled. Fairness is assumed only by the liveness theorems that say so.

## 5. Not modelled

C++ templates and overload resolution, memory allocation failure, weak memory orderings, object layout and lifetime outside the
handles named above; the kernel's socket layer (TCP delivers a prefix of the bytes sent, in any division); real time; the text layer of rapidjson
(its DOM is the boundary of Json_Model.v); reflection macros; CQS, row and column REST views (api.h 316-, 590-660); nlp/, midichlorians/, ripcurrent/, karl/,
external/, visualisation (graph/, plotutils), iOS and Android code, the Apple and Windows variants of the sockets and clients.

## 6. Where the code does not do what one relies on

Each is a theorem with the suffix `_refuted`: a concrete execution of the model. They are the reason for most `partial` entries of MANIFEST.json;
the theorem without the suffix beside it is what does hold.

| theorem | what happens |
|---|---|
| `C03_concurrent_publish_leaks_past_till_refuted` | C03, concurrent case: [Iterate(from, till)] takes the mutex twice; a publish between the two critical sections can put an entry newer than [till] into the returned range. |
| `C05_unparsable_unsafe_payload_refuted` | refuted in full generality: the file persister does not parse the payload of PublishUnsafe. |
| `C05_unsafe_newline_corrupts_file_refuted` | ... and a newline inside the raw line splits it in two: the acknowledged entry is then followed by garbage and the file cannot be opened any more. |
| `C08_entry_published_after_recovery_is_lost_refuted` | refuted: after such a recovery the next publish is acknowledged but glued to the torn line, and is gone after the next reopen. |
| `C08_torn_head_append_refuted` | refuted for a torn #head append: the rewriter then extends the file past the appender's position, so the offset recorded for the next entry points into the middle of a line and the acknowledged entry cannot be read (until the file is reopened). |
| `C08_torn_head_rewrite_refuted` | refuted for head updates: the in-place rewrite is not atomic; a crash in the middle of rewriting 199 to 200 leaves 299, a head nobody requested, and valid publishes are then rejected. |
| `C100_no_leading_zeros_refuted` | 100 - 1e-10 with 15 digits is "099.9999999999": the allowance of 1e-10 (rounding.h 52) takes the number to have three digits before the point, and they do not round up to four. |
| `C101_edges_to_other_nodes_refuted` | An edge to a node that is not in the graph can be drawn to another node, which is: nodes are told apart by their order_key (graphviz.h 180-182), and a node that is in another graph has one from there. The comment there expects a node0 instead. |
| `C102_escaped_backslashes_refuted` | A group after an escaped backslash does not count, so that the names after it are of the groups before theirs: 72 looks at one character only. |
| `C102_lookaheads_refuted` | [(?!a)(?<x>b)]: a negative lookahead counts as a group, so that [x] is taken to be group two of one (regex.h 70 leaves out [?:] and [?=] only). |
| `C12_head_update_on_empty_refuted` | is false of head updates on a stream without covered entries: a subscriber started on the empty stream and waiting is not woken by UpdateHead(5), though one started after UpdateHead(5) is told. |
| `C12_start_in_the_future_refuted` | is false for a start time in the future: the entry published with an earlier timestamp (index 0, past the begin index) is never delivered, the thread runs in circles: the state repeats. |
| `C15_array_is_closed_refuted` | `?array&period=5`, ended by a head update: the array is not closed, and the body is no JSON (pubsub.h 434-456 returns Done without closing it). |
| `C15_index_and_time_refuted` | `?i=5&since=15`: a head update, to 15 or later, turns the output on for all the entries after it (pubsub.h 438-442), so an entry of an index below 5 is sent. |
| `C15_period_as_documented_refuted` | `period`: "as soon as the next data record [...] is `period` or more microseconds from the minimum between the first record returned and the earliest timestamp requested via `since`" (pubsub.h 91-93): with `?since=5&period=10` a record at 15 or later would end it. The records at 16 and 20 are returned. |
| `C15_recent_and_since_refuted` | `?recent=50&since=90`: `since` is ignored. |
| `C15_tail_0_ignores_i_refuted` | `?tail=0&i=3`: `i` is ignored. |
| `C15_tail_and_time_refuted` | `?tail=1&since=5`: "if the stream contains at least `tail` records at the time the request is being fulfilled, the first `tail` records returned would be the ones already available" (pubsub.h 74-77); but an entry published meanwhile makes the one already available (of index 0) fail the check (278-281). |
| `C18_a_lost_reply_refuted` | The reply of a granted flip may be lost: then there is no master, now or ever after. |
| `C18_refused_in_a_chain_refuted` | One which follows another stream may refuse a flip, and yet have become the master itself: it asks the stream it follows before it checks its own restrictions. |
| `C18_restrictions_refuted` | The restriction on the number of entries does not hold for a follower without any; the one on the size does not count the head's record. |
| `C19_publish_during_change_refuted` | A Publish that waits for the mutex held by a role change which waits for the publisher to be released: a deadlock. |
| `C20_use_after_destruction_refuted` | The last borrower leaves the locked section; the destructor finds no borrowers and returns; the borrower then notifies a destroyed condition variable (owned_borrowed.h 121-134). |
| `C21_borrow_from_owned_rvalue_refuted` | So does making a borrower from an rvalue of the owner. |
| `C21_move_assignment_refuted` | Move assignment to a borrower which still refers to an instance: the owner of that instance will never finish, whatever is done later. This includes h = std::move(h). |
| `C22_called_after_release_refuted` | The callback of a borrower is called after that borrower has been released: it was in the list already taken. |
| `C22_not_called_refuted` | A borrower made from another borrower, after the list was taken: its callback is never called, and the owner waits for it. |
| `C28_replay_with_key_changing_patch_refuted` | A Patch that changes the key, then an Erase: the journal names the new key, replay differs from the live state. |
| `C30_exception_reported_though_published_refuted` | is false when [f2] throws after [f1] returned: the mutations stay published, yet the caller is told of an exception, resp. of a rollback. |
| `C30_f2_called_once_refuted` | Moreover [f2] may then be called twice, and the result says rolled back. |
| `C32_increasing_when_blocking_refuted` | In blocking mode the timestamp is checked before waiting for room: two waiting publishers may be stored in the other order. |
| `C34_destructor_drains_refuted` | The destructor of MMQ does not deliver what is queued. |
| `C35_destructor_refuted` | ... and what is queued when the destructor runs is lost, even behind the head. |
| `C35_equal_timestamps_refuted` | refuted: of two messages published with the same timestamp one is dropped ... |
| `C35_timestamp_order_refuted` | ... a message published behind the head comes after later ones ... |
| `C36_mock_strictly_increasing_refuted` | ... but it does repeat once it reaches its maximum (SetNow's default maximum is 0, so it repeats at once). |
| `C38_after_pad_refuted` | is false of debug builds for characters after a '=': they are ignored. |
| `C38_release_build_refuted` | is false of release builds: garbage is decoded to something, the other alphabet is accepted, and a byte >= 128 reads past the end of the table. |
| `C39_non_ascii_refuted` | EncodeURIComponent prints a byte >= 0x80 as a sign-extended int: decoding does not give it back. |
| `C41_relative_path_with_scheme_refuted` | Without that condition it is false: a relative URL whose path contains "://" is read as one with a host. |
| `C43_nul_bytes_refuted` | is false of texts with NUL bytes: Feed(std::string) drops the rest of the block from the NUL on, so the division into blocks matters. |
| `C45_large_chunk_refuted` | A chunk size of 2^31 or more, legal in HTTP, is not read as its value. |
| `C46_remove_other_spelling_refuted` | refuted for Remove with another spelling: the header is gone from the map but its (freed) object stays listed: size() is 1, and iterating reads freed memory. |
| `C47_assign_dangles_refuted` | ... and where both have the same header, its old object is freed but still listed. |
| `C47_assign_keeps_old_headers_refuted` | Copy assignment refuted: the target keeps its own headers ... |
| `C49_nested_optional_refuted` | Not for all types: an Optional within an Optional that contains an empty one comes back empty. |
| `C49_string_overload_refuted` | The overload taking std::string ignores the format it is instantiated with. |
| `C49_uninitialized_variant_refuted` | Not for uninitialized variants: in format Current their JSON can't be parsed. |
| `C50_map_entry_inherits_refuted` | In a map from strings to structs, given in a patch, the fields missing from an entry are those of the entry before it (numbers are not changed by being moved from). |
| `C50_unmentioned_map_refuted` | A map that is not mentioned makes the patch fail, after the fields before it have been changed. |
| `C50_unmentioned_set_refuted` | A set that is not mentioned is cleared. |
| `C50_unmentioned_variant_refuted` | So does a variant, in format Current. |
| `C51_truncated_refuted` | Narrower ones are truncated. |
| `C53_unreported_change_refuted` | PotentiallyMutableUse with a function which changes the data and returns false: the waiter sleeps on although its predicate holds. |
| `C53_use_after_destruction_refuted` | The last client decreases the counter; the destructor sees zero and returns; the client then notifies a condition variable which no longer exists (waitable_atomic.h 343-349). |
| `C56_throwing_unregister_changes_nothing_refuted` | C56, false as one might expect it: an UnRegister that throws has changed nothing. |
| `C57_content_length_truncated_refuted` | The length is read by atoi: one of 2^32 + 5 is taken for 5. |
| `C58_server_terminates_refuted` | A chunk size out of range of int (or negative) throws std::out_of_range / std::length_error, which the server thread does not catch: the process terminates. |
| `C61_returned_index_refuted` | refuted: the slot is read after the commit, when it may hold another message: the first publisher is told index 2 and timestamp 7, those of the second one's message. |
| `C62_cookies_refuted` | refuted in general: a value with [=] inside (base64 has it) or an empty one is lost, and of two cookies of the same name in a header the first is kept. |
| `C63_other_formats_refuted` | In the formats Minimalistic and JavaScript a variant for which the document has null keeps its old value. |
| `C64_the_owner_is_kept_out_refuted` | The other side of it: guesses keep the one who knows the key out. |
| `C65_idle_follower_waits_refuted` | "A follower which has everything waits for more": no. If the last line it has received was an entry, it subscribes again without `since` (replicator.h 86-89, 198-199); an idle master then begins with its head, which the follower refuses, as it is not after its own (C65_everything_sent_is_taken, the second case). The exception makes the follower subscribe again, at once (replicator.h 311-316); and the state of both is the same as before. |
| `C67_deleted_recreated_refuted` | A precondition does not protect from a deletion: the write creates the resource anew (201) although its client meant to update the one it had read. |
| `C67_eviction_refuted` | A precondition covers the resource written, not those it takes the place of: in a one-to-one matrix a conditional PUT removes, with no 412, an entry modified after the time given, because it shares the row. |
| `C67_malformed_key_refuted` | The text of a key is not checked: [DELETE .../abc] deletes the entry under key 0. |
| `C67_same_second_lost_update_refuted` | The standard headers do not protect from an update made within the same second: read an entry, let somebody else update it, write it back under [If-Unmodified-Since: <the Last-Modified of the entry read>]: accepted, the other update is lost. |
| `C68_deletion_between_pages_refuted` | Pages are numbered, not anchored to entries: when an entry is deleted between two requests, a client that follows [url_next_page] never sees an entry that was in the collection all the time. |
| `C68_page_overflow_refuted` | So is the bound on [i + n]: a page asked for with [i=1] and a great [n] is empty although there are entries from number 1 on. |
| `C68_zero_page_size_refuted` | The hypothesis [1 <= n] is needed: with [n=0] (or an [n] that is not a number) every page is empty and the next page is the same page: the walk never ends. |
| `C69_endless_redirects_refuted` | A server that keeps inventing locations keeps the client forever: there is no limit on redirects. |
| `C69_fragment_sent_refuted` | The fragment of a URL is sent to the server. |
| `C69_headers_to_another_host_refuted` | The credentials given for one host are sent to whichever host it redirects to. |
| `C69_location_case_refuted` | The name of a header is compared with case: a [location] is not followed. |
| `C69_query_location_refuted` | A location that only has a query makes the client throw. |
| `C69_relative_page_refuted` | A path relative to the page (no leading slash) is taken for a host. |
| `C70_nul_refuted` | A NUL character ends the count, although a [std::string] may hold one. |
| `C71_default_terms_refuted` | A default-constructed term, such as an element of a [term_vector_t(n)], is not the zero it is natively: it is the variable [x[0]]. |
| `C71_negative_zero_literal_refuted` | With doubles, constants that compare equal need not be the same: recording the literal [-0.0] turns the [0.0] recorded before into [-0.0] (one node is shared, and overwritten), and [1 / 0.0], which is [+inf] natively, into [-inf]. |
| `C71_unary_minus_refuted` | With doubles, unary minus, recorded as [0.0 - x], is not the native one: at [x = 0] it is [0] and not [-0], so that [1 / -x] is [+inf] and not [-inf]. |
| `C72_polynomial_time_refuted` | Differentiation does not run in polynomial time: a derivative already found on the way is not looked up, so that shared subexpressions are differentiated once per path. [f = f + f], repeated [n] times, takes at least [2 ^ n] turns of the loop. |
| `C73_array_of_nulls_refuted` | From {"a":[null]} no exception is thrown, and the field is declared as of type [std::vector<>], which is not a type. |
| `C73_empty_array_refuted` | From {"a":[]} and {"a":1} an [Optional<uint64_t>] is inferred: into it the first document does not parse. So "every document parses into the type inferred from it" is false. |
| `C73_reserved_word_refuted` | A key that is a reserved word of C++ is accepted, and the struct printed has a field of this name: {"int":1}. |
| `C73_struct_names_refuted` | The names given to structs are not always distinct: {"a":{"b":{}},"a_b":{}}. |
| `C74_null_count_refuted` | The number of documents without the field, reported as "unset", is wrong if several come before the first with it: from {}, {} and {"a":1} one null is counted, not two. |
| `C76_array_kind_refuted` | The size of an array is added without a bound: that of a large array runs into the TypeIDs of vectors. |
| `C76_compiler_refuted` | The TypeIDs of recursive types depend on the order in which a compiler evaluates the arguments of a constructor (`ReflectedType_Pair(CurrentTypeID<A>(), CurrentTypeID<B>())`): another compiler, another TypeID. |
| `C76_enum_names_refuted` | Two enums with different names of the same CRC32 get the same TypeID. |
| `C76_enum_underlying_refuted` | The underlying type of an enum does not count: two enums of the same name, one of uint8_t, the other of int64_t. |
| `C76_names_refuted` | Field and type names count only by their CRC32: two structs whose fields have different names ("plumless", "buckeroo"), and two enums with different names, get the same TypeID. |
| `C77_array_for_vector_refuted` | Once an array was reflected, the entry of the vector of the same elements is that of the array. |
| `C77_array_missing_refuted` | An array is registered under the TypeID of the vector (reflection.h 389), while fields refer to it by its own: the schema has no entry for the type of the field; a description prints `UNKNOWN_TYPE_…` (schema.h 296-300). The project's test of this is disabled with `#if 0` (smoke_test_struct.h 88-92). |
| `C77_collision_refuted` | With two enums of one name (of two namespaces) the entry is that of one of them: the other is described with the wrong underlying type. Hence the hypothesis of [C77_schema] that the TypeIDs differ. |
| `C78_after_2262_refuted` | The times are [std::chrono::microseconds], but pass through the nanoseconds of the system clock, which overflow on 11 April 2262 (undefined behaviour; wrapping around, 1 January 2300 is written as a day of 1715). |
| `C78_before_1970_refuted` | Before 1970 the time is rounded up, not down: half a second before 1970 is written as 1970. |
| `C78_epoch_refuted` | Zero stands for "not a date": the first second of 1970, read with the padding [Lower], throws. |
| `C78_no_such_day_refuted` | Days which do not exist, and wrong days of the week, are accepted: 31 February is read as 3 March. |
| `C78_read_after_2262_refuted` | A date of 2300 in a header is read as one of 1715. |
| `C78_rfc850_refuted` | The years of RFC 850 have two digits: 2069 is read as 1969. |
| `C79_atomic_refuted` | "All updates happen by atomically renaming the old config": they do not; killed in the middle of an update, the program finds neither the old config nor the new one and does not start. |
| `C79_same_second_refuted` | "Preserving the history": of the configs updated within one second only the last is saved. |
| `C79_silent_refuted` | "On any error, an exception is thrown": an error of writing what the stream has buffered is not noticed (the disk is full), both the old and the new config are lost. |
| `C79_startup_copy_refuted` | "During startup, the binary also makes an atomic copy of the config file": it saves what it has parsed, and overwrites the file with it. |
| `C79_throwing_update_refuted` | An Update which throws because the file cannot be written has changed the config in force. |
| `C80_many_nodes_refuted` | The bound on the number of nodes is needed, and nothing checks it (the assertion of x64_native_jit.h is empty in every build): the node number [2 ^ 28 - 16] is compiled into an access 2 GiB below the heap; here it faults, instead of returning its value. |
| `C81_concurrent_emit_refuted` | [(A + B) \| C] where [A] and [B] emit from threads of their own: [emit] takes the time before it takes the lock of the queue, so the later of two times can get there first, and the other, perfectly legal, [emit] is refused: its message never arrives, and the default error handler ends the process. |
| `C82_same_timestamp_refuted` | Two [schedule] calls with one timestamp (which [schedule] allows: only [post] insists on increasing ones): the queue is an [std::set] ordered by the timestamp, so the second message is dropped, without an error, after its call was counted: the message never arrives and [Join] waits for it for ever. |
| `C82_schedule_ahead_refuted` | A [schedule] for a time which nothing moves the head of the queue to: the message stays in the queue, and [Join] waits for it for ever. |
| `C83_close_is_not_a_reset_refuted` | The end of the stream is reported as a connection reset if the last error of this thread was one: [recv] returns 0 and leaves errno alone, and the code looks at errno. |
| `C83_eagain_retried_refuted` | And it gives up on [EAGAIN] (a receive timeout), which the same comment lists as a reason to keep looping. |
| `C83_keeps_reading_refuted` | The comment says that [FillFullBuffer] "will cause BlockingRead() to keep reading more data until all `max_elements` are read", and that the loop continues in this case. It does not: [continue] in [do ... while (false)] ends the loop, so one short [recv] (a signal arrived, the peer closed) makes the call throw, and the bytes it has taken are gone. |
| `C83_long_writes_refuted` | A write of 2^31 bytes or more throws, even if the operating system has taken all of it. |
| `C84_descriptor_zero_refuted` | Descriptor 0 is a valid one (the program closed its standard input): the accessor takes it for an invalid one and throws, also in the destructor, which is [std::terminate]. |
| `C84_failed_constructor_leaks_refuted` | And so does a constructor in which setsockopt() fails. |
| `C84_move_assignment_leaks_refuted` | Move assignment overwrites the descriptor it had: it stays open for ever, with the port it holds. |
| `C85_finds_a_free_port_refuted` | But a port that stays free can be missed, and the program exits: the search shuffles the ports when it comes to the end of them, in the middle of going around. Here the thread has reserved and given back port 25000, which is now the only free one; the search tries the other 4000, shuffles, and tries one port, which is another one. |
| `C86_garbage_rejected_refuted` | What comes after the number is ignored: ["--n=12abc"] sets [n] to 12, and ["--n=1.5"] to 1. |
| `C86_negative_rejected_refuted` | A negative number for an unsigned flag is not an error: ["--n=-1"] sets [n] to 4294967295. |
| `C86_small_integers_refuted` | A flag of type int8 or uint8 is set to the code of the first character: ["--n=5"] sets [n] to 53. |
| `C87_alive_is_not_timed_out_refuted` | "A service whose keepalive has been accepted is not timed out": the keepalive is accepted (the registry has it as active, the owner has been notified) before its time is recorded. Karl's thread can look in between; then a service that has just been heard from is reported as timed out, and the registry has it as disconnected until it is heard from again. |
| `C87_left_is_not_timed_out_refuted` | "A service that has left gracefully is not reported as timed out": the same, the other way round. The end of the story is the wrong one: the registry has it as disconnected by timeout. |
| `C87_restored_services_time_out_refuted` | "Silence is noticed, whatever was there when Karl was started": services that are active in the storage when Karl is started are put into the cache behind the back of its thread (without the mutex, and without waking it up), which by then may be asleep without a deadline. Such a service stays active, in silence, for any time. |
| `C87_timed_out_after_the_timeout_refuted` | "A silent service is timed out after the timeout": the thread sleeps for the timeout counted from the *most recent* of all keepalives, so it takes almost twice that; the bound of [C87_silence_is_noticed] is met exactly. |
| `C88_shown_with_its_last_service_refuted` | "A codename is shown with the service of its last keepalive": a codename that has had another service within the window is shown under the name that comes later in the alphabet. |
| `C88_snapshot_refuted` | "The snapshot of a service is its last keepalive": the index of the keepalive is stored where one more than the index is expected (554), so the snapshot of a service that has just been heard from is the keepalive of another. |
| `C89_open_scope_is_notified_refuted` | "A signal with an open scope is notified": the notifier keeps a set, so of two scopes of the same signal the first that is closed takes the signal off. |
| `C89_signal_wakes_refuted` | "SignalExternalTermination() wakes up the thread": the stop signal is set without the mutex, so the thread may have tested it just before and go to sleep just after the notification; only the end of the 25 ms (the "deadlock workaround" of line 65) wakes it up. |
| `C90_descent_returns_numbers_refuted` | "The result is a number": the first optimizer does not look at the value at the start. If that is NaN, nothing is ever less, and NaN is returned, after the full number of steps, although every other point has a value. |
| `C90_result_is_not_worse_refuted` | "The result is not worse than the start": a line search that runs out of its hundred steps returns where it is, and the first step that makes things worse is taken all the same. Both optimizers, with the parameters they have by default, minimize 10^12 x^2 from 1 (10^12) to about -325, where it is 10^17. |
| `C91_self_append_refuted` | "Adds an instance, or several instances, erasing them from the rhs": [x += std::move(x)] of an object that holds anything iterates over the vector it appends to, which is undefined; [x = std::move(x)] is defined, and calls everything. |
| `C92_empty_cells_refuted` | Cells are attributed to columns: refuted where cells are empty. Of a table of three columns with an empty cell, a row of which can be read only if it has a fourth cell, which comes out under the wrong name. |
| `C93_registering_later_is_safe_refuted` | Claire is told to send a keepalive before Register has been called, by the program or by a request to its own status page ([/.current?initiate_keepalive], or [?report_to=...]): this starts the keepalive thread; Register, when it is called, finds it running, takes it for a mistake of the programmer's, and ends the process (claire.h 351-355). |
| `C93_waiting_calls_return_from_a_destructed_object_refuted` | The destructor ends the keepalive thread while another thread, of the program's or of the HTTP server's ([/.current?initiate_keepalive=wait]), waits in ForceSendKeepalive for the next keepalive: there will be none, and that thread looks for it every millisecond for ever. |
| `C94_comparing_with_a_value_is_comparing_refuted` | [>=] and [<=] of two Optionals are made from T's [<], [!=] from T's [==] (optional.h 124-145, 453-474); those of an Optional and a value are T's own (149-206, 478-535). For a double that is not a number the two disagree. |
| `C94_moved_from_is_nothing_refuted` | ImmutableOptional has the move constructor the compiler makes, which copies the pointer (optional.h 112-113): the ImmutableOptional that has been moved from goes on to say that its value exists; once the other is gone, taking the value is use after free. |
| `C94_moving_keeps_the_value_refuted` | An Optional that refers to an object of the program's (it was made with [FromBarePointer], or a pointer was assigned to it) loses it when it is moved from: the move constructor and the move assignment take over the unique_ptr only (optional.h 334-342, 401-410), so that the new Optional is empty, whereas a copy has the value. |
| `C94_pod_optionals_can_be_copied_refuted` | An [Optional<int>] made from an ImmutableOptional that has nothing leaves [value_] unwritten (optional.h 234-239), and copying that Optional, or moving it, reads [value_] all the same (223-232, 260-271): an indeterminate value is read, which is undefined behaviour. |
| `C95_const_inner_variants_can_be_put_refuted` | Constructing a variant from a const lvalue of a variant type that is in its list does not put that variant into it: the constructor for other variants is preferred (variant.h 148-151 is more specialized than 181-185), which tries to put there what the inner variant holds, and throws. From an lvalue that is not const, or by assignment, it works. |
| `C96_entries_are_those_since_the_reset_refuted` | After a reset, a scope that the thread is not in and has not entered since is reported to have been entered once (profiler.h 106, 128-130), and one entered since, once too often. |
| `C96_the_parts_of_a_thread_take_no_longer_than_the_thread_refuted` | A thread's first EnterScope counts the scope from before the thread's own entry is made (profiler.h 236-238, 114-118): the scope is reported to have taken longer than the thread it is in, its share of it is more than one or, if no time has gone by for the thread, one; the assertion that the parts take no longer than the whole (174) fails, which is printed. |
| `C97_equal_unique_chunks_are_equal_strings_refuted` | UniqueChunks of one database that point to the same address are equal, whatever their lengths (chunk.h 198-206): the database keeps two chunks that begin at the same address, a prefix and the whole, apart, but the UniqueChunks it gives for them are equal. (The comment in 179-181 says the opposite.) With the contents [a\0b] and lengths 1 and 3, even the assertion that a NUL follows (75, 98) holds. |
| `C97_the_database_keeps_the_strings_refuted` | The database keeps a pointer to the Chunk object it was given, not a copy (chunk.h 222-224): when that object is assigned another string, the database gives that for the first one: [a] is found, and is [b]. |
| `C98_blocks_are_as_written_refuted` | Also within one schema: the sum of [Map(digit, Number, output.x = input.d)] and [Map(digit, Number, output.x = 10 * input.d)] |
| `C98_every_keyword_can_be_matched_refuted` | A keyword with a capital letter is never matched: the words of the query are put into lower case (nlp.h 583), and the keyword is not (inl 74). |
| `C98_schemas_are_as_written_refuted` | The second Filter of a block, or Map of a block to the same type, is the first one again: the static in MapHelper and FilterHelper (nlp.h 567, 575) is one for each type of block, and the function is not in the type. Filter(digit, even) and Filter(digit, odd) both give even digits. |
| `C98_units_are_found_once_refuted` | A Map to Unit of what can be found in several ways is found several times, and in a sequence so is what is before it: the code relies on there being one (nlp.h 358-361, 381). |
| `C99_each_line_shows_its_status_refuted` | With more lines than there are rows, the lines that have left the screen are shown on its first row, over the line that is there: the cursor goes up no further. |
| `C99_lines_can_be_created_by_other_threads_refuted` | A line that is updated while another thread creates the next one can be shown in the wrong row: how far up it is gets read before the mutex is taken (progress.h 153-154). The status of the first line is then on the second. |
| `C99_what_is_above_stays_refuted` | What was on the terminal before can be overwritten as well: between ++total_ (172, 178) and the end of line the constructor prints (71), other lines take themselves to be one row higher than they are. |

Read in the code but outside the model: `BlockingRead` uses `continue` inside `do { } while (false)` (tcp/impl/posix.h 418-459); `BorrowedOfGuaranteedLifetime`'s move
constructor drops the error callback; `consecutive_malformed_chunks_count_` is not initialised (replicator.h 358); the client's Host header omits the port
(posix_client.h 102), and a 303 keeps method and body; REST handlers send the response while holding the publishing mutex.

## 7. How the theorems are tested

`seeded/LOG.jsonl`: one line per wrong program tried (an edit of one definition of the model in a scratch copy, then a rebuild), with the theorems that no longer prove,
and for each survivor the theorem added or tightened because of it.
