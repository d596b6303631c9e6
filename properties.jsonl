{"id": "C01", "title": "In-memory persister is an append-only log with strictly increasing timestamps", "statement": "For any sequence of Publish / PublishUnsafe / UpdateHead calls on an in-memory persister, the entries that can be read back are exactly the accepted ones, in the order they were accepted, with indexes 0,1,2,..., their timestamps strictly increase, every timestamp is >= 0, the head is >= every entry timestamp, and a call that throws changes nothing observable.", "quantifier": "every sequence of API calls with arbitrary timestamps and payloads, from an empty persister", "why_tests_cant": "The set of call sequences and timestamps is unbounded; unit tests exercise a handful.", "anchors": ["blocks/persistence/memory.h: MemoryPersister::PersisterPublishImpl", "blocks/persistence/memory.h: PersisterPublishUnsafeImpl", "blocks/persistence/memory.h: PersisterUpdateHeadImpl"]}
{"id": "C02", "title": "A publish is accepted exactly when its timestamp exceeds the head", "statement": "Publish(entry, t) succeeds iff t is strictly greater than the current head, and then returns {index = old size, us = t}, makes the head t and appends exactly that entry; otherwise it throws InconsistentTimestampException{expected = head+1, found = t}. The same acceptance rule governs UpdateHead, which never changes the entries; PublishUnsafe additionally requires the index in the line to equal the size.", "quantifier": "every reachable persister state, every timestamp and payload", "why_tests_cant": "Boundary behaviour must hold for every pair (head, timestamp), not for sampled values.", "anchors": ["blocks/persistence/memory.h: PersisterPublishImpl", "blocks/persistence/memory.h: PersisterUpdateHeadImpl", "blocks/persistence/file.h: FilePersister::PersisterPublishImpl"]}
{"id": "C03", "title": "Timestamp-range lookups return exactly the matching entries", "statement": "IndexRangeByTimestampRange / Iterate(from, till) yields exactly the entries whose timestamp lies in [from, till] (no upper bound when till <= 0), in order and contiguous; Iterate throws iff till > 0 and till < from.", "quantifier": "every reachable persister and every pair (from, till)", "why_tests_cant": "Binary-search boundary errors only show for particular combinations of timestamps and bounds.", "anchors": ["blocks/persistence/memory.h: PersisterIndexRangeByTimestampRangeImpl", "blocks/persistence/file.h: PersisterIndexRangeByTimestampRangeImpl"]}
{"id": "C04", "title": "Index-range iteration returns the requested slice or throws", "statement": "Iterate(begin, end) returns exactly entries begin..end-1 with their own indexes, end = 2^64-1 meaning `to the current end`; invalid ranges (end > size, begin > end) throw InvalidIterableRangeException and never read out of bounds.", "quantifier": "every reachable persister and all begin/end values", "why_tests_cant": "Out-of-bounds reads depend on exact begin/end/size relations for all sizes.", "anchors": ["blocks/persistence/memory.h: PersisterIterateImpl", "blocks/persistence/file.h: PersisterIterateImpl"]}
{"id": "C05", "title": "File persister and in-memory persister are observationally equivalent", "statement": "For any history of Publish/PublishUnsafe/UpdateHead/size/head/last/range/iterate calls, the file-backed persister gives the same results and exceptions as the in-memory one.", "quantifier": "every history of API calls", "why_tests_cant": "Equivalence over all histories is a refinement statement; tests compare a few scripted histories.", "anchors": ["blocks/persistence/file.h: FilePersister", "blocks/persistence/memory.h: MemoryPersister"]}
{"id": "C06", "title": "Reopening a file persister restores its state", "statement": "After any sequence of successful operations, closing and reopening the same file with the same signature yields a persister with the same entries, indexes, timestamps, last-published record and head, and continuing on it behaves as if it had never been closed.", "quantifier": "every history of operations and reopen points", "why_tests_cant": "The file contents depend on the entire history (head records are rewritten in place); tests try only a few.", "anchors": ["blocks/persistence/file.h: ValidateFileAndInitializeHead", "blocks/persistence/file.h: PersisterUpdateHeadImpl", "blocks/persistence/file.h: IteratorOverFileOfPersistedEntries"]}
{"id": "C07", "title": "File replay rejects corrupted logs", "statement": "Opening a file succeeds only if its entry lines carry indexes 0,1,2,... and strictly increasing timestamps, also relative to the interleaved #head directives, and any #signature appears at offset zero and matches; otherwise an exception is thrown.", "quantifier": "every byte string as a file content", "why_tests_cant": "The space of corrupted files is infinite.", "anchors": ["blocks/persistence/file.h: ProcessNextEntry", "blocks/persistence/file.h: ValidateFileAndInitializeHead"]}
{"id": "C08", "title": "Crash while appending: what survives", "statement": "If the process dies in the middle of an append (the file is cut at any byte of the last record), reopening either recovers exactly the entries acknowledged before, or refuses to open; entries published after recovery are not lost.", "quantifier": "every history, every crash byte offset within the last append", "why_tests_cant": "Crash points are not reachable from unit tests.", "anchors": ["blocks/persistence/file.h: PersisterPublishImpl", "blocks/persistence/file.h: ValidateFileAndInitializeHead"]}
{"id": "C09", "title": "In-place head rewriting never damages entries", "statement": "Any number of UpdateHead calls after the last entry keeps exactly one #head record at the end of the file, of constant length, and no byte of any previously written line changes.", "quantifier": "every history of publishes and head updates with timestamps below 10^20", "why_tests_cant": "Depends on the exact byte layout for every timestamp width and every interleaving.", "anchors": ["blocks/persistence/file.h: PersisterUpdateHeadImpl", "blocks/persistence/file.h: kHeadFormatString"]}
{"id": "C10", "title": "Every subscriber sees every entry exactly once, in order", "statement": "A subscriber started at index b receives entries b, b+1, b+2, ... of the stream, each exactly once, in order, contiguous and with the index/timestamp they were published with, no matter how publishes, head updates and the subscriber thread interleave.", "quantifier": "all interleavings of publishers and the subscriber, all begin indexes and all batch sizes", "why_tests_cant": "Thread schedules cannot be enumerated by tests.", "anchors": ["stream/stream.h: SubscriberThreadInstance::ThreadImpl", "stream/stream.h: PassEntriesToSubscriber"]}
{"id": "C11", "title": "Subscriber observes strictly increasing time", "statement": "The timestamps passed to a subscriber (of entries and of head updates together) strictly increase, and a head update is only delivered after all entries older than it.", "quantifier": "all interleavings, all streams", "why_tests_cant": "Schedules.", "anchors": ["stream/stream.h: ThreadImpl"]}
{"id": "C12", "title": "A waiting subscriber is woken for everything there is to deliver", "statement": "A subscriber blocked waiting for news never stays blocked while the stream holds an undelivered entry at or past its begin index, or a head update it has not been told about.", "quantifier": "all interleavings", "why_tests_cant": "Lost wake-ups only show on rare schedules and particular start indexes.", "anchors": ["stream/stream.h: ThreadImpl (WaitUntil predicate)", "bricks/util/waitable_terminate_signal.h: WaitableTerminateSignal"]}
{"id": "C13", "title": "A subscriber that answers Done gets nothing more", "statement": "After the subscriber returns Done, or returns Terminate from its termination callback, it is not called again; termination is announced at most once; a subscriber answering Wait keeps receiving entries.", "quantifier": "all interleavings and all subscriber answer sequences", "why_tests_cant": "Schedules and answer sequences are unbounded.", "anchors": ["stream/stream.h: ThreadImpl", "stream/stream.h: PassEntriesToSubscriber"]}
{"id": "C14", "title": "Type-filtered subscription is a filter", "statement": "Subscribing to one case of a Variant delivers exactly the entries of that case, in order; if the last entry is of another case the subscriber's fallback decides whether to stop.", "quantifier": "all streams of variant entries, all filters", "why_tests_cant": "All sequences of cases.", "anchors": ["blocks/ss/pubsub.h: PassEntryToSubscriberIfTypeMatchesImpl::Dispatch"]}
{"id": "C15", "title": "HTTP subscription returns the requested range", "statement": "For GET with i, tail, n, since, recent, nowait, entries_only and array, the body is the concatenation of the records selected by these parameters (all constraints AND-ed), in order, at most n of them, and with `array` it is a well-formed JSON array.", "quantifier": "all streams, all parameter combinations", "why_tests_cant": "The parameters form an unbounded product space.", "anchors": ["stream/pubsub.h: PubSubHTTPEndpointImpl", "stream/stream.h: ServeDataViaHTTP"]}
{"id": "C16", "title": "Chunk boundaries do not affect replication", "statement": "The remote-stream client hands the subscriber the same sequence of complete records however the HTTP body is cut into chunks, including cuts inside a record or between \\r and \\n.", "quantifier": "every byte stream and every way of cutting it into chunks", "why_tests_cant": "Exponentially many chunkings.", "anchors": ["stream/replicator.h: RemoteStreamSubscriber::PassChunkToSubscriber"]}
{"id": "C17", "title": "A replica is always a prefix of its master", "statement": "Whatever disconnects and retries happen, the follower's entries are at every moment a prefix of the master's entries (same payloads, indexes, timestamps), and its head never exceeds the master's.", "quantifier": "all histories of master publishes, deliveries, disconnects, malformed chunks and resubscriptions", "why_tests_cant": "Failures and retries create unbounded histories.", "anchors": ["stream/replicator.h: RemoteStreamSubscriber", "stream/replicator.h: StreamReplicatorImpl", "stream/replicator.h: RemoteSubscriberThread::ThreadImpl"]}
{"id": "C18", "title": "Master flip transfers authority without loss", "statement": "When a flip request is accepted, the new master's data after applying the diff equals the old master's data and head; when it is refused both remain as they were. At no time are both streams accepting local publishes.", "quantifier": "all states of the two streams, all restrictions and keys", "why_tests_cant": "State space of two replicas and restriction parameters.", "anchors": ["stream/replicator.h: MasterFlipController::MasterFlipRequest", "stream/replicator.h: ValidateAndSendDiff", "stream/replicator.h: FlipToMaster"]}
{"id": "C19", "title": "Publisher exclusivity", "statement": "At most one publisher generation is valid: after BecomeFollowingStream/BecomeMasterStream every publisher obtained earlier has been released; Publisher()/BorrowPublisher() throws iff the stream is a follower.", "quantifier": "all sequences of role changes, borrows and releases", "why_tests_cant": "Ownership histories are unbounded.", "anchors": ["stream/stream.h: Stream::RecreatePublisher", "stream/stream.h: BecomeMasterStream", "stream/stream.h: BecomeFollowingStream"]}
{"id": "C20", "title": "Owned object outlives all its borrowers", "statement": "The destructor of Owned<T> returns only when no Borrowed<T> is alive; the object is valid for every borrower until released; after destruction starts every borrower observes invalidity.", "quantifier": "all interleavings of borrow, copy, move, release and destruction", "why_tests_cant": "Lifetime races.", "anchors": ["bricks/sync/owned_borrowed.h: UniqueInstance", "bricks/sync/owned_borrowed.h: WeakBorrowed"]}
{"id": "C21", "title": "Releasing all borrowers lets the owner finish", "statement": "Once every borrowed handle has been destroyed, moved from or set to null, the number of active borrowers is zero and the owner's destructor completes.", "quantifier": "all histories of borrow/copy/move-construct/move-assign/release", "why_tests_cant": "Leaks of a registration show only after particular handle histories.", "anchors": ["bricks/sync/owned_borrowed.h: WeakBorrowed::MoveFrom", "bricks/sync/owned_borrowed.h: Borrowed::operator="]}
{"id": "C22", "title": "Termination callbacks are delivered to live borrowers", "statement": "When the owner is destroyed, the callback of every registered BorrowedWithCallback is called exactly once, and never after that borrower has been released.", "quantifier": "all interleavings of the destructor with borrower releases", "why_tests_cant": "Race window between collecting and invoking callbacks.", "anchors": ["bricks/sync/owned_borrowed.h: ~UniqueInstance", "bricks/sync/owned_borrowed.h: UnRegisterBorrower"]}
{"id": "C23", "title": "Dictionary container behaves as a map", "statement": "After any sequence of Add/Erase (and Patch) the dictionary's Size/Has/operator[]/iteration agree with the finite map obtained by applying the operations, and LastModified(key) is the time of the last mutation that touched the key, kept for erased keys.", "quantifier": "all operation sequences", "why_tests_cant": "Unbounded operation sequences.", "anchors": ["storage/container/dictionary.h: GenericDictionary"]}
{"id": "C24", "title": "OneToOne keeps a bijection", "statement": "After any sequence of Add/Erase/EraseRow/EraseCol, each row is bound to at most one column and vice versa; Add removes every conflicting entry; the row view, the column view and the element map always agree.", "quantifier": "all operation sequences", "why_tests_cant": "Unbounded operation sequences and conflict patterns.", "anchors": ["storage/container/one_to_one.h: GenericOneToOne"]}
{"id": "C25", "title": "OneToMany keeps columns unique", "statement": "After any operation sequence each column belongs to at most one row; Add re-binds the column, removing the old entry; the row view, the column view and the element map agree, no empty row is listed.", "quantifier": "all operation sequences", "why_tests_cant": "Unbounded operation sequences.", "anchors": ["storage/container/one_to_many.h: GenericOneToMany"]}
{"id": "C26", "title": "ManyToMany views agree", "statement": "After any operation sequence the rows view, the columns view and the element map of a many-to-many container list exactly the same entries, and no empty row or column is listed.", "quantifier": "all operation sequences", "why_tests_cant": "Unbounded operation sequences.", "anchors": ["storage/container/many_to_many.h: GenericManyToMany"]}
{"id": "C27", "title": "Rollback restores the exact prior state", "statement": "If a transaction is rolled back (StorageRollback exception or any other exception), all containers, including last-modified times, are exactly as before the transaction, and nothing is published to the stream.", "quantifier": "all transactions (sequences of mutations over all container kinds), aborted at any point", "why_tests_cant": "Abort points and conflict-driven implicit deletes give unboundedly many cases.", "anchors": ["storage/transaction_policy.h: Synchronous::TransactionFromLockedSection", "storage/base.h: MutationJournal::Rollback", "storage/container/one_to_one.h: Add", "storage/container/one_to_many.h: Add", "storage/container/many_to_many.h: Add", "storage/container/dictionary.h: Add"]}
{"id": "C28", "title": "Replaying the log reconstructs the storage", "statement": "Applying the persisted transactions from the beginning to an empty storage gives the state of the live storage (contents and last-modified), for all containers; a follower that applied the first k transactions equals the master right after its k-th committed transaction.", "quantifier": "all histories of committed and rolled-back transactions", "why_tests_cant": "Unbounded histories.", "anchors": ["storage/persister/stream.h: SyncReplayStreamFromLockedSectionOrConstructor", "storage/persister/stream.h: ApplyMutationsFromLockedSectionOrConstructor", "storage/persister/stream.h: PersistJournalFromLockedSection"]}
{"id": "C29", "title": "A transaction is published atomically", "statement": "A committed transaction with at least one mutation appends exactly one stream entry holding all its mutations in order; a read-only, empty or rolled-back transaction appends nothing; the journal is empty between transactions.", "quantifier": "all transaction histories", "why_tests_cant": "Unbounded histories.", "anchors": ["storage/persister/stream.h: PersistJournalFromLockedSection", "storage/transaction_policy.h: TransactionFromLockedSection"]}
{"id": "C30", "title": "Two-step transactions report what happened", "statement": "For the two-argument transaction, the result reported to the caller (committed / rolled back / exception) agrees with whether the mutations were published.", "quantifier": "all bodies f1, f2 and all ways they may throw", "why_tests_cant": "Requires every combination of exceptions.", "anchors": ["storage/transaction_policy.h: TransactionFromLockedSection(F1&&, F2&&)"]}
{"id": "C31", "title": "MMQ is FIFO without loss or duplication", "statement": "In blocking mode every message whose Publish returned is handed to the consumer at most once and in allocation order, with consecutive indexes; slots are never overwritten while being read.", "quantifier": "all interleavings of any number of publishers and the consumer, all buffer sizes >= 1", "why_tests_cant": "Schedules.", "anchors": ["blocks/mmq/mmq.h: MMQImpl"]}
{"id": "C32", "title": "MMQ timestamps are strictly increasing", "statement": "Messages come out of the queue with strictly increasing timestamps.", "quantifier": "all interleavings of publishers in blocking and dropping modes", "why_tests_cant": "Schedules.", "anchors": ["blocks/mmq/mmq.h: CircularBufferAllocate"]}
{"id": "C33", "title": "Dropping MMQ only drops when full", "statement": "In drop mode Publish never blocks, fails only when all slots are occupied, and a dropped message leaves the queue unchanged.", "quantifier": "all interleavings", "why_tests_cant": "Schedules.", "anchors": ["blocks/mmq/mmq.h: CircularBufferAllocate"]}
{"id": "C34", "title": "MMQ destructor flushes the queue", "statement": "The destructor waits until all queued messages have been consumed (as its comment states).", "quantifier": "all queue contents at destruction", "why_tests_cant": "Schedules.", "anchors": ["blocks/mmq/mmq.h: ~MMQImpl", "blocks/mmq/mmq.h: ConsumerThread"]}
{"id": "C35", "title": "Priority queue delivers in timestamp order, after the head passed", "statement": "MMPQ hands a message to the consumer only after UpdateHead reached its timestamp, in timestamp order, and delivers every published message.", "quantifier": "all sequences of Publish and UpdateHead", "why_tests_cant": "Unbounded sequences.", "anchors": ["blocks/mmq/mmpq.h: MMPQImpl"]}
{"id": "C36", "title": "Time is strictly increasing", "statement": "current::time::Now() returns strictly increasing values across all threads, even if the system clock stalls or goes back.", "quantifier": "all interleavings of callers and all clock readings", "why_tests_cant": "Schedules and clock behaviours.", "anchors": ["bricks/time/chrono.h: EpochClockGuaranteeingMonotonicity::Now"]}
{"id": "C37", "title": "Base64 decoding inverts encoding", "statement": "For every byte string s, Base64Decode(Base64Encode(s)) = s and Base64URLDecode(Base64URLEncode(s)) = s; the encoding has length 4*ceil(n/3), uses only the characters of its alphabet plus at most two trailing '=' signs, and distinct inputs have distinct encodings.", "quantifier": "all byte strings of all lengths", "why_tests_cant": "The input space is infinite; padding cases depend on length mod 3 and carry bits.", "anchors": ["bricks/util/base64.h: Impl::EncodeInto", "bricks/util/base64.h: Impl::DecodeInto"]}
{"id": "C38", "title": "Base64 decoding rejects invalid input and stays in bounds", "statement": "Decoding a string with a character outside the alphabet throws Base64DecodeException and never reads or writes out of bounds.", "quantifier": "all byte strings, debug and release builds", "why_tests_cant": "Invalid inputs are unbounded and the check is compiled in only for debug builds.", "anchors": ["bricks/util/base64.h: Impl::DecodeInto", "bricks/util/base64.h: IsValidChar"]}
{"id": "C39", "title": "URI component decoding inverts encoding", "statement": "For every string s, DecodeURIComponent(EncodeURIComponent(s)) = s, and the encoding contains no character with a meaning in a URL (/, ?, #, &, =, %, +, space) other than the % of an escape.", "quantifier": "all byte strings", "why_tests_cant": "Infinite input space; wrong only for specific characters.", "anchors": ["blocks/url/url.h: EncodeURIComponent", "blocks/url/url.h: DecodeURIComponent"]}
{"id": "C40", "title": "Query parameters survive compose and parse", "statement": "For every list of (key, value) pairs and fragment, parsing the URL composed from them yields the same list of pairs in the same order and the same fragment; lookup by key returns the first pair with this key.", "quantifier": "all lists of ASCII keys and values", "why_tests_cant": "Interaction of separators and escapes over unbounded lists.", "anchors": ["blocks/url/url.h: ExtractURLParametersFromURL", "blocks/url/url.h: ComposeParameters", "blocks/url/url.h: QueryParameters"]}
{"id": "C41", "title": "Composed URLs parse back", "statement": "For a URL with given scheme, host, port and path, ParseURL(ComposeURL(u)) = u.", "quantifier": "all scheme/host/port/path combinations without reserved characters", "why_tests_cant": "Default ports and schemes interact.", "anchors": ["blocks/url/url.h: ParseURLWithoutParameters", "blocks/url/url.h: ComposeURL"]}
{"id": "C42", "title": "Split and Join are inverse", "statement": "Split(s, sep, Keep) yields the unique sequence of separator-free fields whose join with sep is s; Split(Join(fields, sep), sep, Keep) = fields for a non-empty list of separator-free fields; the Skip mode yields the same sequence without empty fields.", "quantifier": "all strings, separators and field lists", "why_tests_cant": "Infinite input space and boundary positions.", "anchors": ["bricks/strings/split.h: Split", "bricks/strings/join.h: Join"]}
{"id": "C43", "title": "Line grouping does not depend on how input is chopped", "statement": "Feeding a text to StatefulGroupByLines in any division into blocks yields the same sequence of lines, which are the newline-separated lines of the text, the last incomplete one delivered on destruction / Done iff non-empty.", "quantifier": "all texts without NUL and all their divisions into blocks", "why_tests_cant": "Every cut position and every number of blocks.", "anchors": ["bricks/strings/group_by_lines.h: GenericStatefulGroupByLines::Feed", "bricks/strings/group_by_lines.h: DoDone"]}
{"id": "C44", "title": "Edit distance functions compute the Levenshtein distance", "statement": "SlowEditDistance(a,b) is the least number of single-character insertions, deletions and substitutions turning a into b; FastEditDistance(a,b,k) equals it whenever it is <= k, and never reports less.", "quantifier": "all pairs of strings and all k", "why_tests_cant": "Optimality quantifies over all edit scripts.", "anchors": ["bricks/strings/distance.h: SlowEditDistance", "bricks/strings/distance.h: FastEditDistance"]}
{"id": "C45", "title": "Chunked HTTP transfer is transparent", "statement": "The body reconstructed from a chunked HTTP message equals the concatenation of the data passed to Send, no matter how the sender's cache batches chunks and how the network divides the byte stream into reads.", "quantifier": "all sequences of Send calls (with or without flush), all cache sizes, all divisions into reads", "why_tests_cant": "Read boundaries are chosen by the network; every byte position can be a cut.", "anchors": ["bricks/net/http/impl/server.h: ChunkedResponseSender", "bricks/net/http/impl/server.h: GenericHTTPRequestData"]}
{"id": "C46", "title": "HTTP header lookup ignores case and -/_", "statement": "After any sequence of Set/Remove, Has/Get for a name agree with the last operations on any spelling of this name (case-insensitive, - and _ equal), values of repeated headers are joined by a comma, and iterating lists each present header once, in order of first insertion.", "quantifier": "all sequences of Set/Remove/Get calls with arbitrary spellings", "why_tests_cant": "The list and the map may diverge only for specific histories.", "anchors": ["bricks/net/http/headers/headers.h: Headers", "bricks/net/http/headers/headers.h: Header::KeyComparator"]}
{"id": "C47", "title": "Copy-assigned HTTP headers equal their source", "statement": "After `a = b` for two Headers objects, a lists exactly the headers of b and all of its internal references are valid.", "quantifier": "all pairs of header collections", "why_tests_cant": "Depends on the prior contents of the destination.", "anchors": ["bricks/net/http/headers/headers.h: Headers::operator=", "bricks/net/http/headers/headers.h: DeepCopyFrom"]}
{"id": "C48", "title": "CompactTSV unpacking inverts packing", "statement": "Feeding any rows of equal width (1..254 columns, cells shorter than 64K, total below 4GB) to CompactTSV and unpacking the packed string yields the same rows in the same order and their count.", "quantifier": "all tables within the documented limits", "why_tests_cant": "String sharing, deltas and markers interact across the whole table.", "anchors": ["compact_tsv/compact_tsv.h: CompactTSV::operator()", "compact_tsv/compact_tsv.h: CompactTSV::Unpack"]}
{"id": "C49", "title": "Parsing the JSON of an object gives the object back", "statement": "For every serializable type and value, ParseJSON<T>(JSON(x)) = x.", "quantifier": "all types built from primitives, structs, optionals, variants and containers, all their values", "why_tests_cant": "Types and values are unbounded, corner cases combine (nested optionals, duplicate keys).", "anchors": ["typesystem/serialization/json/json.h: JSON", "typesystem/serialization/json/json.h: ParseJSON", "typesystem/serialization/json/optional.h: DeserializeImpl"]}
{"id": "C50", "title": "PatchObjectWithJSON changes only what the patch mentions", "statement": "PatchObjectWithJSON(x, patch) sets the fields mentioned in the patch to the parsed values and leaves every field not mentioned as it was.", "quantifier": "all struct types, values and patches", "why_tests_cant": "Each container type implements the missing-field case on its own.", "anchors": ["typesystem/serialization/json/json.h: PatchObjectWithJSON", "typesystem/serialization/json/set.h: DeserializeImpl", "typesystem/serialization/json/map.h: DeserializeImpl"]}
{"id": "C51", "title": "ParseJSON does not silently alter integers", "statement": "If ParseJSON into an integer field succeeds, the field holds the integer that was in the JSON.", "quantifier": "all integer types and JSON numbers", "why_tests_cant": "All values and widths.", "anchors": ["typesystem/serialization/json/primitives.h: DeserializeImpl"]}
{"id": "C52", "title": "CRC32 is the IEEE CRC-32", "statement": "CRC32(s) equals the reflected CRC-32 (polynomial 0xEDB88320, initial value and final xor 0xFFFFFFFF) defined bit by bit, and can be computed incrementally: CRC32(CRC32(0,a),b) = CRC32(0,a++b).", "quantifier": "all byte strings and all splits", "why_tests_cant": "Infinite input space.", "anchors": ["bricks/util/crc32.h: CRC32"]}
{"id": "C53", "title": "A waiter on WaitableAtomic is never lost", "statement": "A thread in Wait(predicate) proceeds once the predicate holds after a modification (or, for the intrusive version, once destruction began, returning false); the intrusive object is destroyed only when all registered clients are gone, and no client can register after destruction began.", "quantifier": "all interleavings", "why_tests_cant": "Schedules.", "anchors": ["bricks/sync/waitable_atomic.h: WaitableAtomicImpl"]}
{"id": "C54", "title": "OT log replay applies edits like a text editor", "statement": "The rope produced from an OT log equals the left-to-right application of its edits (insert, skip, delete at the caret); if every number stays within the document no out-of-range memory access happens.", "quantifier": "all edit logs", "why_tests_cant": "Carets and lengths interact for all logs; out-of-range numbers are undefined behaviour.", "anchors": ["utils/operational_transformation/ot.h: OT"]}
{"id": "C55", "title": "Fixed-size number serialization preserves value and order", "statement": "PackToString yields strings of one fixed length; unpacking gives the number back and lexicographic order of the strings equals numeric order.", "quantifier": "all values of the unsigned type", "why_tests_cant": "All pairs of values.", "anchors": ["bricks/strings/fixed_size_serializer.h: FixedSizeSerializer", "bricks/time/chrono.h: FixedSizeSerializer"]}
{"id": "C56", "title": "HTTP routing picks the longest registered prefix", "statement": "A request path is served by the handler registered for the longest path prefix (by components) that accepts the number of remaining components; the remaining components are passed decoded, in order; unregistered paths get none. Registering/unregistering routes changes exactly these routes.", "quantifier": "all sets of registered routes and all paths", "why_tests_cant": "Unbounded route sets and paths.", "anchors": ["blocks/http/impl/posix_server.h: FindHandler", "blocks/http/impl/posix_server.h: DoRegisterHandler", "blocks/http/impl/posix_server.h: UnRegister"]}
{"id": "C57", "title": "Plain HTTP request parsing is independent of segmentation", "statement": "Method, path, headers and the Content-Length body extracted from a request depend only on the bytes sent, not on how the network divides them into reads; a body is exactly Content-Length bytes.", "quantifier": "all requests and all divisions into reads", "why_tests_cant": "Read boundaries are chosen by the network.", "anchors": ["bricks/net/http/impl/server.h: GenericHTTPRequestData"]}
{"id": "C58", "title": "A malformed request cannot take the HTTP server down", "statement": "Whatever bytes a client sends, parsing ends by delivering a request, by an error response, or by an exception the accept loop handles; no exception escapes the loop and memory is accessed only within the buffer.", "quantifier": "all byte streams", "why_tests_cant": "The space of malformed inputs is infinite.", "anchors": ["bricks/net/http/impl/server.h: GenericHTTPRequestData", "blocks/http/impl/posix_server.h: HTTPServerPOSIX::Thread"]}
{"id": "C59", "title": "Trim removes exactly the surrounding whitespace", "statement": "Trim(s) is the part of s left after removing the longest prefix and the longest suffix consisting of whitespace; it does not start or end with whitespace and is empty exactly when s is all whitespace.", "quantifier": "all strings and all whitespace predicates", "why_tests_cant": "Infinite input space.", "anchors": ["bricks/strings/util.h: Trim"]}
{"id": "C60", "title": "Key-value pairs survive composing and splitting", "statement": "Splitting text composed of key<separator>value fields with SplitIntoKeyValuePairs returns exactly the composed pairs in order; in throwing mode a call that returns drops no field.", "quantifier": "all lists of pairs not containing the separators, and all texts", "why_tests_cant": "Infinite input space; the silent mode drops malformed fields.", "anchors": ["bricks/strings/split.h: SplitIntoKeyValuePairs"]}
{"id": "C61", "title": "Publishing to a queue returns the index its message is delivered with", "statement": "The index and timestamp returned by Publish are those the consumer is given with that very message.", "quantifier": "all interleavings of any number of publishers and the consumer, all buffer sizes >= 1", "why_tests_cant": "Depends on where the publishing thread is preempted.", "anchors": ["blocks/mmq/mmq.h: MMQImpl::PublisherPublishImpl"]}
{"id": "C62", "title": "Cookies survive the Cookie header", "statement": "Cookies written with CookiesAsString and read back with ApplyCookieHeader have the same names and values.", "quantifier": "all cookie collections", "why_tests_cant": "Infinite input space; depends on the characters in names and values.", "anchors": ["bricks/net/http/headers/headers.h: Headers::ApplyCookieHeader", "bricks/net/http/headers/headers.h: CookiesAsString"]}
{"id": "C63", "title": "ParseJSON into an existing object does not depend on what it held, and yields a valid value", "statement": "If ParseJSON(json, x) succeeds, x then holds a value determined by the JSON alone, and that is a valid value of its type: integers within range, variants set to one of their cases, sets and maps ordered without duplicates. It can be written as JSON and parsed again to the same value.", "quantifier": "all types, JSON documents and old values", "why_tests_cant": "Types, documents and old values are unbounded; each type has its own deserializer which assigns to the destination piecewise.", "anchors": ["typesystem/serialization/json/json.h: ParseJSON", "typesystem/serialization/json/vector.h: DoDeserialize", "typesystem/serialization/json/variant.h: DoDeserialize"]}
{"id": "C64", "title": "Guessing the flip key is exponentially slow", "statement": "While a stream is exposed, a client that does not know the flip key and has had k of its guesses compared with the key has spent at least 2^(k-1)-1 seconds, however its requests are timed; requests made during the delay are refused with a reply that does not depend on the key and leave the delay as it is; and no flip is granted without the key having been looked at.", "quantifier": "all sequences of flip requests and times, all keys and restrictions", "why_tests_cant": "The bound is over every strategy of an attacker, not one schedule.", "anchors": ["stream/replicator.h: MasterFlipController::MasterFlipRequest", "stream/replicator.h: ExposedStreamState"]}
{"id": "C65", "title": "A follower that reconnects takes everything it is sent", "statement": "However many times the HTTP connection of a replicating follower breaks, at whichever byte, and whatever the users of the master publish meanwhile: the follower subscribes again with the index and time it derives from what it has accepted, the entries of its stream always are a prefix of the master's, none of the entries it still lacks is at or before its head, and every line of a new connection is accepted without an exception (entries are neither skipped nor repeated), also across the boundaries of the chunks.", "quantifier": "every run of the master's publishers, every number of connections, every schedule of the serving thread, every point at which a connection breaks, every division of the body into chunks, both replication modes", "why_tests_cant": "The break can come at every byte of every line and at every moment of the serving thread; a test exercises a few of them, and the idle reconnect goes unnoticed because the follower's data is right.", "anchors": ["stream/replicator.h: GetURLToSubscribe, ThreadImpl, PassChunkToSubscriber, PassEntryToSubscriber", "stream/stream.h: ServeDataViaHTTP", "stream/pubsub.h: PubSubHTTPEndpointImpl"]}
{"id": "C66", "title": "A storage on a file survives restarts, and its commits are atomic under crashes", "statement": "For a storage whose stream persists to a file: after any history of transactions, other published records, head updates, openings, role changes and restarts, a new process started on the file opens it, sees the same stream (entries, timestamps, head), and a storage opened on it shows exactly what the live master showed (elements, rows, columns, last-modified times, last applied timestamp). If the process is killed while a transaction is being appended, with any number of its bytes written, then a new process that can read the file at all shows the storage either as before the transaction or as after it, never anything in between.", "quantifier": "every schema, codec, clock and history of calls and restarts; every transaction program; every number of bytes written at the crash", "why_tests_cant": "Tests restart after a few chosen transactions; they cannot kill the process at every byte of every commit of every history.", "anchors": ["storage/storage.h: StorageImpl", "storage/persister/stream.h: SyncReplayStreamFromLockedSection, PersistJournalFromLockedSection", "blocks/persistence/file.h: FilePersister"]}
{"id": "C67", "title": "The REST API of a storage is faithful to the table, and conditional writes do not lose updates", "statement": "GET by key returns exactly the object stored under the key with its last-modified time in both headers, or 404, on masters and followers alike, and changes nothing. Every POST, PUT, PATCH and DELETE sent to a master either is refused with the documented code and changes nothing (400 bad key, body or header, 404, 405, 409 already exists, 412 modified meanwhile), or is exactly one transaction in the stream that stores (or removes) exactly the object asked for and touches nothing else except the entries it competes with in a one-to-one or one-to-many matrix; the response carries the new last-modified time, whether or not the client is still there. Followers refuse every write with 405. If a client reads a resource and later writes it with X-Current-If-Unmodified-Since set to the time it was given, then after any history in between a write that takes effect replaces the very object the client had read. Exports by shard partition the field.", "quantifier": "every schema and field kind, key and body parser, clock, reachable history of transactions, replication, restarts and role changes, request, and disappearance of the client", "why_tests_cant": "the lost-update guarantee ranges over all histories between the read and the write, on either replica, and the faithfulness over all tables and requests; the tests exercise fixed sequences", "anchors": ["storage/rest/structured.h: RESTfulDataHandler GET 108-272, POST 275-325, PUT 327-384, PATCH 386-454, DELETE 456-500, ExtractIfUnmodifiedSinceOrRespondWithError 76-106", "storage/api.h: generic_data_handler 137-283", "storage/api_types.h: 63-166"]}
{"id": "C68", "title": "Following the pages of a REST collection visits every entry", "statement": "A page of n entries of a collection, asked for from number i on, holds exactly the entries i..i+n-1 in order, says where it begins, how many entries it holds and how many there are, and has a next page exactly when there are entries after it, a previous one exactly when it does not begin the collection. Following url_next_page from the first page ends within ceil(total/n) requests and the pages put together where they say they begin are the whole collection; following url_previous_page from any page ends at the first page.", "quantifier": "every collection, page size and starting number", "why_tests_cant": "a claim about all sizes and the walk over all pages; tests look at a few pages of a small collection", "anchors": ["storage/rest/hypermedia.h: BuildResponseWithCollection 110-175, Enter 190-201"]}
{"id": "C69", "title": "The HTTP client follows redirects to the right place, never visits a URL twice, and stops", "statement": "Whatever the other side answers, the HTTP client sends one request per URL it visits; each URL after the first is the one the previous reply redirected to; no URL is visited twice (a loop is reported by an exception); with redirects disallowed exactly one request is sent. It returns the code of the first reply that is not a redirect together with the URL that gave it. A redirect to a full URL goes to the host and port of that URL (the standard port of the scheme when none is given) for its path and parameters; a redirect to a path stays with the same host and port. Every request has a path beginning with a slash. When the other side uses finitely many locations the client stops after a number of requests bounded in advance.", "quantifier": "every request, every server (any function from what was sent to replies), every location", "why_tests_cant": "the loop is driven by the other side: all sequences of replies must be considered", "anchors": ["blocks/http/impl/posix_client.h: Go 72-157", "blocks/url/url.h: MakeRedirectedURL 440-468, MakeURLWithDefaults 415-438"]}
{"id": "C70", "title": "The length of UTF-8 text is the number of its characters", "statement": "UTF8StringLength of any text made of encoded Unicode characters other than NUL returns the number of characters; lengths of concatenated texts add up for arbitrary bytes without NUL.", "quantifier": "all sequences of code points, all byte strings", "why_tests_cant": "infinite input space; tests look at a few strings", "anchors": ["bricks/strings/util.h: UTF8StringLength 324-334"]}
{"id": "C71", "title": "A recorded function evaluates to what its code computes natively", "statement": "For straight-line code over the variables x[0..dim): running it on fncas terms and then calling the recorded function at a point returns exactly the number the same code computes on plain numbers, for every result of the code, whatever was evaluated before; the call ends within 1 + 3 * (number of nodes) steps with no exception and no undefined behaviour. (Not for default-constructed terms, for literals 0.0 and -0.0 in the same function, for unary minus of a zero.)", "quantifier": "every program, every point, every prior state of the evaluation cache, every arithmetic (IEEE doubles included)", "why_tests_cant": "tests evaluate a few functions at a few points; sharing of constant nodes, reuse of cached values and termination of the loop have to be right for all expression graphs", "anchors": ["fncas/fncas/node.h: eval_node, V, X, node_index_allocator", "fncas/fncas/base.h: growing_vector_access"]}
{"id": "C72", "title": "The gradient of a recorded function is its gradient", "statement": "For straight-line code over the reals in which the function does not use unit_step: constructing the gradients of any of its results ends without an exception; the recorded functions still evaluate as before; each gradient called at a point returns dim numbers, the i-th being the partial derivative of the function by x[i] wherever all the operations the function needs are differentiable. Where unit_step is used, an exception is thrown. (Not claimed: that it takes polynomial time.)", "quantifier": "every program, every list of its results differentiated one after another, every point, every prior state of the cache", "why_tests_cant": "the rules of differentiation and their simplifications (by zero and one, constant folding) interact; tests compare to finite differences at a few points", "anchors": ["fncas/fncas/differentiate.h: d_op, d_f, simplified_mul, differentiate_node, g_impl"]}
{"id": "C73", "title": "Every JSON document a schema was inferred from parses into the inferred type", "statement": "Schema inference over a file with one JSON document per line ends either in an exception or in C++ struct definitions; if it ends without an exception and the definitions are valid types, then each of the input documents (less the members at the paths that were to be ignored) is accepted by ParseJSON of the top-level inferred type, provided its empty arrays are at places the type has vectors. Without that proviso, and for the claims that the output is always valid C++ with distinct struct names, counterexamples are given.", "quantifier": "all files of documents with distinct member names in each object (less than 2^32 values in all), all sets of ignored paths, all input documents", "why_tests_cant": "A test compares the output for a few files with golden files; that every line of every file parses back depends on the merging of schemas along all paths of all documents.", "anchors": ["utils/json_schema/infer.h: RecursivelyInferSchema, Reduce, CallReduce, SchemaToCurrentStructPrinter, SchemaFromOneJSONPerLineFile", "typesystem/serialization/json: ParseJSON"]}
{"id": "C74", "title": "An inferred JSON schema says exactly what the documents contain, regardless of their order", "statement": "The schema inferred has, at every position, a field exactly if some document has it with something other than an empty array; its type is string, bool, object, array or number exactly if all non-null values found there are, with int64 integers kept apart from doubles, unsigned and plausible-time flags set exactly if all values qualify; instance counts are exact; optional exactly if it is null, absent or an empty array somewhere. Inference succeeds exactly if such a schema exists and the names are C++ identifiers. Permuting the lines changes only the order of fields (and the number of nulls reported).", "quantifier": "all files of documents with distinct member names in each object (less than 2^32 values in all), all permutations of lines", "why_tests_cant": "The result is a fold of a binary merge over the lines; that it depends on the set of documents only, is a property of all sequences of lines.", "anchors": ["utils/json_schema/infer.h: RecursivelyInferSchema, Reduce, CallReduce, SchemaFromOneJSONPerLineFile"]}
{"id": "C75", "title": "SHA256 is the SHA-256 of the standard for every input", "statement": "SHA256(s) is the digest FIPS 180-4 defines for the bytes of s, as 64 lowercase hexadecimal digits, for every string of any length; an object given its input by any number of portions of any sizes, and asked for the hash at any moments in between, answers each time with the hash of all the bytes given so far.", "quantifier": "all byte strings, all ways to cut them into portions, all interleavings of adding and asking, any previous contents of the memory", "why_tests_cant": "Boundaries: lengths around 55, 56, 63 and 64 modulo 64, portions that fill the buffer exactly, padding left in the buffer by an earlier question, lengths over 2^32; test vectors cover a handful of lengths.", "anchors": ["bricks/util/sha256.h: SHA256", "3rdparty/stephan-brumme/sha256.h: add, getHash, processBlock, processBuffer"]}
{"id": "C76", "title": "TypeIDs depend on the definitions only", "statement": "CurrentTypeID<T>() ends with a 64 bit number for every set of reflected types, recursive ones included. It does not depend on which TypeIDs the thread asked for before, on namespaces, on the order of definitions or on the program: two types with the same names, fields and underlying types have the same TypeID. For types without recursion it is a function of the definition all the way down, the same for every compiler. Its leading digits tell the kind of the type; different primitive types have different TypeIDs; so should different types.", "quantifier": "all programs (finite sets of definitions of structs, templates, enums, variants, containers, recursive or not), all types of them, all sequences of queries in a thread, both orders of evaluation of constructor arguments", "why_tests_cant": "TypeIDs are stored in files and compared between machines: they must agree for every set of types, every order of queries and every compiler; tests fix a few numbers on one compiler", "anchors": ["typesystem/reflection/types.h: CalculateTypeID, TypeID", "typesystem/reflection/reflection.h: CurrentTypeID, TypeTraverserState, RecursiveTypeTraverser", "typesystem/typename.h: CurrentTypeName", "bricks/util/rol.h: ROL64"]}
{"id": "C77", "title": "Schemas are complete, exact and in order", "statement": "After any sequence of AddType calls the schema holds an entry for exactly the types the structs and variants asked for consist of (super classes, fields, cases, elements), each once and described by its own definition; every TypeID an entry refers to has an entry; the order lists every non-primitive type once, after all the types it consists of except those it is mutually recursive with. AddType does not throw.", "quantifier": "all programs without arrays whose types have different TypeIDs, recursive types included; all sequences of AddType calls", "why_tests_cant": "the schema is made by two mutually recursive traversals with shared maps; tests have one structure; forward references matter for every graph of types", "anchors": ["typesystem/schema/schema.h: StructSchema, AddType, TypeTraverser", "typesystem/reflection/reflection.h: ReflectorImpl, ReflectType", "typesystem/reflection/types.h: ReflectedType_*"]}
{"id": "C78", "title": "Dates written can be read back", "statement": "Formatting a time (as the date of an HTTP header in either of its formats, or with the default format) gives the day found by counting from Thursday 1 January 1970 in the Gregorian calendar and the time of the day; parsing what was written gives the second of the time (or, with the upper padding, its last microsecond), so that times of different seconds are written differently; a header which is not a date is refused.", "quantifier": "all times representable by the system clock from 1970 on (until April 2262; until 2069 for the format with two-digit years); all texts of headers", "why_tests_cant": "a test formats a few dates; leap years, the ends of months and centuries and every one of the representable seconds must be right", "anchors": ["bricks/time/chrono.h: FillStructTM, FormatDateTime, FormatDateTimeAsIMFFix, FormatDateTimeAsRFC850, DateTimeStringToTimestamp", "bricks/net/http/headers/headers.h: ParseHTTPDate"]}
{"id": "C79", "title": "The self-modifying config keeps its history", "statement": "Update puts the new config in force and into the file and saves the previous one in a file named after the time; reloading or starting anew gives the config put last; through any history of starts, stops, updates and reloads every config that was in force is in the file saved at the time it was replaced, and these files are listed in the order of time. A program killed at any point of an update leaves the file as it was or the previous config completely saved; if Update throws because the previous config cannot be saved, nothing has changed. A missing or malformed file is refused and left alone.", "quantifier": "all configs, file names and times until 2262, all histories whose updates fall into different seconds, all points of being killed, all combinations of failing writes", "why_tests_cant": "the test updates twice and does not stop in between; the guarantee is about histories of any length and every byte a process can be killed at", "anchors": ["blocks/self_modifying_config/config.h: SelfModifyingConfig, HistoricalFilename, Reload, Update", "bricks/file/file.h: ReadFileAsString, WriteStringToFile"]}
{"id": "C80", "title": "The x64 code generated for a function or its gradient computes exactly what the interpreter computes", "statement": "For every function recorded with fncas (every result of every straight-line program of any number of variables), the machine code its x64 compiler generates - the actual bytes, run by the processor's rules and the System V calling convention - returns, at every point, exactly the value the interpreted function returns, hence what the program computes natively; the code generated for the gradient writes exactly the components of the interpreted gradient to the front of its heap. It runs to its return without a fault, calls the library functions with an aligned stack and assuming nothing about the registers they may change, preserves the callee-saved registers, and writes nothing but its heap vector and its part of the stack; the contents left in the heap by earlier calls do not matter. This holds up to 2^28 - 16 nodes; nothing checks that bound, and past it the code accesses memory far outside of the heap.", "quantifier": "for every arithmetic of 64-bit words (IEEE doubles among them), program, result, point, set of addresses, initial memory and behaviour of called functions the ABI allows", "why_tests_cant": "the tests run a few expressions at a few points; a compiler has to be right for every expression tree with sharing, every offset and every state of registers and stack a call may leave", "anchors": ["fncas/x64_native_jit/x64_native_jit.h: opcodes, CallableVectorUInt8", "fncas/fncas/jit.h: JITCodeGenerator::jit_compile_node, f_compiled_x64_native_jit, g_compiled_x64_native_jit"]}
{"id": "C81", "title": "RipCurrent delivers every emitted message exactly once, in order, to the one block wired to its sender", "statement": "For every flow put together from user-defined blocks with | and + and run with RipCurrent().Async()/Join(), once Join has returned: every block has made exactly the calls its code makes on the messages it received; every call that carries a message ended up in the queue or in the error handler; everything put in the queue was received exactly once, in the order of the sender's calls, by the block the diagram wires the sender to that takes its type, and by no other block. At any earlier time a block has received a prefix of this. If the blocks only emit(), and no two blocks that can run at the same time write into one pipe, the error handler is never called; if moreover every block receives from one block, what every block receives is a function of the wires and the code alone: not of the schedule, the clock, the parentheses or the order of the sides of +. Emitting from two threads into one pipe (two sources) breaks the promise: the time is taken before the lock, so a legal emit() can be refused, which by default ends the process.", "quantifier": "for every diagram, block code, schedule of the threads and sequence of clock values", "why_tests_cant": "a unit test sees a handful of diagrams and the schedules the machine happens to choose; the races are between taking the time, advancing the head of the queue and publishing", "anchors": ["ripcurrent/ripcurrent.h: Pipe, SubCurrentPlus, MMPQWrapper, UserCodeImpl, emit/post/schedule/head", "blocks/mmq/mmpq.h"]}
{"id": "C82", "title": "Joining a RipCurrent flow drains it, never deadlocks, never uses a destroyed block, and returns", "statement": "For every flow whose blocks emit() and post(): whatever has happened so far, until Join has returned some thread can go on; no schedule goes on for ever, so Join returns; by then every block and every pipe has been destroyed, none of them is used, or destroyed again, after it has been destroyed, and no message is left in a pipe - including the ones the destructors of the blocks emit. With schedule() this fails: two messages scheduled for one time, or one message scheduled for a time the head of the queue never reaches, leave Join waiting for ever.", "quantifier": "for every diagram, block code, schedule of the threads and moment of the call to Join", "why_tests_cant": "termination and absence of deadlock quantify over all schedules; a test that does not hang shows one", "anchors": ["ripcurrent/ripcurrent.h: RipCurrentScope::Join, ~MMPQWrapper, ThreadMessageCounters, SubCurrentScope members", "blocks/mmq/mmpq.h: ~MMPQ"]}
{"id": "C83", "title": "A TCP connection delivers the bytes that were written: reads and writes neither lose, repeat nor reorder", "statement": "Every BlockingRead that returns gives the next bytes of the stream: at least one, at most as many as were asked for, exactly as many with FillFullBuffer. Whatever sequence of reads a client makes, what it has got so far is a prefix of what was sent, and bytes are lost only by a FillFullBuffer read that throws a non-Empty exception. A write that returns has sent all of its bytes; one that throws has sent a prefix. A reset is reported only when the peer reset the connection. The code's comments promise more and it does not hold: FillFullBuffer does not keep reading after a short read, EAGAIN is not retried, an orderly close is reported as a reset when the thread's last error was one, and a write of 2^31 bytes or more always throws.", "quantifier": "for every sequence of reads and writes, buffer size, policy and answer of the operating system", "why_tests_cant": "short reads, signals, stale errno and huge writes depend on what the kernel answers, which a test over loopback does not vary", "anchors": ["bricks/net/tcp/impl/posix.h: Connection::BlockingRead, Connection::BlockingWrite"]}
{"id": "C84", "title": "A socket descriptor has one owner and is closed once, by it", "statement": "Whatever is constructed, accepted, moved, used and destroyed: no descriptor is used or closed unless it is open, so none is closed twice or used after it was closed; at any time a descriptor is owned by at most one handle, and it is open; a moved-from handle throws when used and does nothing when destroyed. If setsockopt() does not fail, nothing is move-assigned to a handle that owns a descriptor, and descriptor 0 is not handed out, then everything open is owned, so it is closed when the handles are gone. Each of these three conditions is needed: move assignment leaks the old descriptor, a constructor in which setsockopt() fails leaks it, and descriptor 0 makes the destructor throw, which terminates the program.", "quantifier": "for every history of operations on any number of handles, and every descriptor numbers the system hands out", "why_tests_cant": "an ownership discipline over all histories; leaks and reuse of a closed descriptor number do not show in a short test", "anchors": ["bricks/net/tcp/impl/posix.h: SocketHandle, Socket, Connection"]}
{"id": "C85", "title": "Reserving a local port yields a port that is bound, and the search for it ends", "statement": "ReserveLocalPort returns a port it has bound, the last one it tried after all the others failed; it is the hint or a port from 25000 to 29000; a hint is tried first; after at most 4001 attempts and the hint the search ends; if, the first time a thread calls it, some port stays free then one is found, and later so is one if a port not tried since the last shuffle stays free. In general it is not: the search reshuffles while it goes around, can miss the only free port, and exits the program.", "quantifier": "for every history of reservations of a thread, every shuffle, and every set of busy ports at every moment", "why_tests_cant": "needs all but one of 4001 ports busy and a particular shuffle", "anchors": ["bricks/net/tcp/impl/posix.h: ReserveLocalPortImpl::DoIt, ReserveLocalPort"]}
{"id": "C86", "title": "A command line has one meaning, and ParseDFlags follows it or exits", "statement": "ParseDFlags goes on exactly if the command line has a meaning (parameters, -flag=value, --flag=value, -flag value, --flag value, a boolean flag alone) and every text is one of a value of its flag's type; then every flag has the last value given for it, or its default, and the parameters are left in order. A command line has at most one meaning. Every flag can be given every text. Strings, booleans and integers in range are read as what they are; a number out of range, an undefined flag, a missing value, three dashes and a second call end the program with -1, --help with 0. Not so: text after a number is ignored, a negative number for an unsigned flag wraps, and int8/uint8 flags are set to a character code.", "quantifier": "for every set of registered flags, every argument list and every text", "why_tests_cant": "the grammar is over all argument lists; which word a boolean flag swallows depends on what follows", "anchors": ["bricks/dflags/dflags.h: ParseFlags, FromStringSupportingStringAndBool, DEFINE_*"]}
{"id": "C87", "title": "Karl's registry: an active service is one that has been heard from recently", "statement": "Once Karl is up, every service the registry has as active is one whose last keepalive is remembered, is being recorded or has just been found too old. Karl's thread never sleeps without a deadline while it remembers any service, and never plans to sleep longer than the timeout. If the thread itself takes no time, then whenever it sleeps every active service has been heard from within twice the timeout. A service reported as timed out had been heard from, and nothing recorded of it when Karl looked was younger than the timeout. The destructor returns. Not so: a service whose keepalive has just been accepted can be reported as timed out; one that has left gracefully can end as disconnected by timeout; services that are active in the storage when Karl is started may never be timed out; silence is noticed after the timeout (it can take twice that).", "quantifier": "for every timeout, every initial storage, every sequence and timing of keepalives and deregistrations, and every interleaving with Karl's thread and the end of its constructor", "why_tests_cant": "The claims are about every interleaving of the HTTP handlers, the constructor and the thread, and about every timing; the tests run Karl with mocked time and one order of events.", "anchors": ["karl/karl.h:StateUpdateThread", "karl/karl.h:AcceptKeepaliveViaHTTP", "karl/karl.h:GenericKarl::GenericKarl", "karl/karl.h:~GenericKarl"]}
{"id": "C88", "title": "Karl's pages: the snapshot and the fleet view show what was heard", "statement": "The fleet view shows a codename exactly if there is a keepalive of it in the requested window (and, with active_only, the registry does not have it in another state): once, with the data of the last such keepalive, as up if that is younger than the timeout, on the machine the registry has for it, with every dependency resolved to the codename last heard from at that location or listed as unresolved; and with its service, if that does not change. The snapshot of a service that has not been heard from since Karl was started is its last keepalive. Not so: the snapshot of a service that has been heard from since is its last keepalive (it is the entry of the stream before it, of whichever service); a codename is shown with the service of its last keepalive.", "quantifier": "for every stream of keepalives, window, timeout, registry and moment, and for every sequence of keepalives, snapshots and restarts", "why_tests_cant": "The tests look at single services with one keepalive each, where one-off indexes and the order of names do not show.", "anchors": ["karl/karl.h:ServeSnapshot", "karl/karl.h:BuildStatusAndRespondWithIt", "karl/karl.h:latest_keepalive_index_plus_one_"]}
{"id": "C89", "title": "WaitableTerminateSignal: a wait ends for a reason, and always ends", "statement": "WaitUntil returns true only if the termination has been signalled and false only if the awaited condition holds (which changes under the mutex). Once either is so, the call returns of itself, after at most one sleep of 25 ms, and with true if it was the termination. An event is never lost: while the thread sleeps and the condition is true, a notification is still to come, and any notification wakes a sleeping thread. A bulk notifier notifies exactly the signals with an open scope, if no signal has two. Not so: signalling the termination wakes up the thread (the wakeup can be lost; only the timeout ends the sleep); a signal with an open scope is notified if another scope of it was closed.", "quantifier": "for every interleaving of the waiting thread with signals, events, notifications, timeouts and spurious wakeups; for every sequence of opened and closed scopes", "why_tests_cant": "A lost wakeup needs one particular interleaving between a test and a sleep; a test that passes says nothing about the others.", "anchors": ["bricks/util/waitable_terminate_signal.h:WaitableTerminateSignal", "bricks/util/waitable_terminate_signal.h:WaitableTerminateSignalBulkNotifier"]}
{"id": "C90", "title": "The FnCAS optimizers return a point with its value, and do not lose ground", "statement": "GradientDescentOptimizer, in either direction and in any ordered arithmetic (IEEE doubles included): the result is a point with the value of the function there, the same as at the start or better; the tracked progress starts at the start and never gets worse; max_steps is kept. GradientDescentOptimizerBT and ConjugateGradientOptimizer: the value is that of the point, it is a normal number if that at the start is (always, for the latter), max_steps is kept, and if a single step without improvement ends the optimization (no_improvement_steps_to_terminate at most 1) the result is not worse than the start. Not so: with the parameters they have by default these two never return something worse than the start (10^12 x^2 from 1 goes to 10^17); GradientDescentOptimizer returns a number (NaN at the start is returned after all steps).", "quantifier": "for every objective function and gradient, starting point, direction, stopping criterion and parameters, in every ordered arithmetic", "why_tests_cant": "The claims are about every function and every starting point; the tests run a few well-behaved ones. A steep function needs only a hundred halvings too few.", "anchors": ["fncas/fncas/optimize.h:GradientDescentOptimizer", "fncas/fncas/optimize.h:GradientDescentOptimizerBT", "fncas/fncas/optimize.h:ConjugateGradientOptimizer", "fncas/fncas/mathutil.h:Backtracking"]}
{"id": "C91", "title": "Scoped deleters call what they captured exactly once, in reverse", "statement": "An AccumulativeScopedDeleter calls each callback it captured at most once; moving, adding and summing never lose, duplicate or call one; a callback is called when the object holding it is destroyed, assigned to, or set to nullptr, the last one added first; when all objects (of the default kind) are gone, every callback ever captured has been called. A sum of temporaries holds their callbacks from left to right as written, however it is parenthesised.", "quantifier": "all sequences of constructions, moves, assignments, additions, sums and destructions of any number of objects of both kinds; all sum expressions", "why_tests_cant": "the fate of a callback depends on the whole history of moves; tests follow four short programs", "anchors": ["bricks/util/accumulative_scoped_deleter.h:AccumulativeScopedDeleter", "blocks/http/impl/posix_server.h:HTTPRoutesScope"]}
{"id": "C92", "title": "CSV files are read back as tables", "statement": "CSV<T>::ReadFile of a table whose cells are not empty and have no commas or line ends returns exactly its header and rows, with any mixture of LF and CRLF line ends and with or without one at the end; what is returned always has as many cells in each row as columns; rows of another length, blank lines, missing and empty files are reported by exceptions. (Empty cells are dropped, which shifts the rest of the row.)", "quantifier": "all tables, all mixtures of line ends, all files", "why_tests_cant": "a test reads one or two literal files", "anchors": ["utils/csv/csv.h:CSV::ReadFile", "bricks/strings/split.h:Split"]}
{"id": "C93", "title": "Claire's keepalives: none asked for is lost, and everything ends", "statement": "ForceSendKeepalive(Wait) and SetKarlLocator(l, Wait) return only after a keepalive that began after the call (and, if nobody else changes the locator, one sent to l), and a waiting call can always return; a request without Wait is not lost either: the keepalive thread does not go to sleep without having sent a keepalive since. A keepalive can be sent at the latest 22 seconds after the last one. The destructor can always return; when it has, the keepalive thread has ended and sends nothing any more, and the DELETE request has been sent exactly if the thread had been started. If Register is called first, the process is never ended. (If ForceSendKeepalive, SetKarlLocator or a request to the status page comes before Register, then Register ends the process; and a call that waits while the destructor ends the thread waits for ever.)", "quantifier": "all interleavings of any number of threads calling Register, ForceSendKeepalive and SetKarlLocator, the keepalive thread, the destructor, spurious wake-ups, and time", "why_tests_cant": "lost wake-ups and calls that never return depend on interleavings that a test does not choose", "anchors": ["karl/claire.h:GenericClaire::Register", "karl/claire.h:GenericClaire::ForceSendKeepalive", "karl/claire.h:GenericClaire::SetKarlLocator", "karl/claire.h:GenericClaire::StartKeepaliveThread", "karl/claire.h:GenericClaire::KeepaliveThread", "karl/claire.h:GenericClaire::~GenericClaire"]}
{"id": "C94", "title": "Optionals are values", "statement": "Whatever is done with Optional<T> and ImmutableOptional<T> (made empty, from a value, from a pointer to an object of the program's, from one another by copying or moving; assigned to; written through; moved onto themselves; destroyed), what is seen in each of them afterwards is what was last put or copied there: copies are independent of what they were copied from, what has been moved from has nothing, taking a value that is not there throws and changes nothing. No object is used after its end or freed twice, each value is owned by exactly one Optional, and nothing is left when the Optionals are gone. The comparison operators are those of the order in which nothing comes first and values are compared as values. (Exceptions: moving an Optional that refers to an object of the program's loses it; an ImmutableOptional that has been moved from still says it has its value; an Optional of a POD type made from an empty ImmutableOptional has an indeterminate value, which copying reads; for NaN, Optional >= Optional is not what Optional >= value is.)", "quantifier": "all sequences of operations on any number of Optionals and ImmutableOptionals, all values, all types with consistent comparison operators", "why_tests_cant": "ownership must be right after every sequence of operations; tests try each operation from a fresh object", "anchors": ["typesystem/optional.h:ImmutableOptional", "typesystem/optional.h:Optional", "typesystem/optional.h:operator<"]}
{"id": "C95", "title": "Variants hold what they were given", "statement": "A Variant<TS...>, at any depth of nesting, holds nothing or an object of a type in its list. Copies are equal to what was copied, at any depth; what has been moved from is empty. Assigning an object of a type in the list puts it there (an inner Variant included); assigning a Variant of another type puts there what that one holds if its type is in the list, empties the variant if that one is empty, and otherwise throws IncompatibleVariantTypeException. Whatever throws has changed nothing, neither the variant nor what was to be moved into it. Call calls the function with the object held, and throws if there is none; Exists<X> and Value<X> succeed exactly if the object is an X or derives from X. Construction does the same as assignment, except that from a const lvalue of a Variant type that is in the list it throws (or empties).", "quantifier": "all sequences of constructions, assignments (by copy, by move, to and from inner variants, to itself), visits and accesses on any number of variants of any types, nested to any depth", "why_tests_cant": "which overload is taken and whether the type is found depends on combinations of types and values that tests only sample", "anchors": ["typesystem/variant.h:VariantImpl", "typesystem/variant.h:TypeAwareClone", "typesystem/variant.h:TypeAwareMove", "bricks/template/rtti_dynamic_call.h:RTTIDynamicCall"]}
{"id": "C96", "title": "The profiler accounts for all the time", "statement": "The time the profiler reports for a scope of a thread is the time that thread has spent in that scope, inner scopes included, since the thread was first seen or the profiler was reset; the number of entries is how often it was entered since. Exactly the threads seen and the scopes entered are reported. The inner scopes of a scope do not together take longer than the scope, nor the scopes of a thread longer than the thread. What other threads do makes no difference. The innermost scope of a thread can always be left, and nothing else can be.", "quantifier": "all interleavings of scopes entered and left, to any depth, by any number of threads, with reports and resets by any of them, and all times they take", "why_tests_cant": "a test sees a few nestings, and measured times are compared, if at all, with tolerances", "anchors": ["profiler/profiler.h:Profiler::StateMaintainer", "profiler/profiler.h:Profiler::StateMaintainer::EnterScope", "profiler/profiler.h:Profiler::StateMaintainer::LeaveScope", "profiler/profiler.h:Profiler::StateMaintainer::Report", "profiler/profiler.h:GenerateReport", "profiler/profiler.h:RecursiveReset"]}
{"id": "C97", "title": "Chunks are strings, and unique chunks their pointers", "statement": "A Chunk stands for its bytes: HasPrefix, ExpungePrefix (the result may be the chunk itself, or the prefix), comparison with a string and LexicographicalCompare do what they say of them, the last being a strict total order. Two UniqueChunks from one ChunkDB are equal exactly if their strings are. What operator[] of the database gives has the string of its argument; Find finds exactly the strings the database has been given, and changes nothing otherwise.", "quantifier": "all sequences of assigning, cutting, interning and finding chunks, of any lengths and overlaps, in any memory", "why_tests_cant": "equality by pointers is right or wrong by where strings happen to be in memory: the unit test of it passes because of which literal it puts there first", "anchors": ["bricks/strings/chunk.h:Chunk", "bricks/strings/chunk.h:Chunk::LexicographicalCompare", "bricks/strings/chunk.h:Chunk::ExpungePrefix", "bricks/strings/chunk.h:UniqueChunk", "bricks/strings/chunk.h:ChunkDB", "bricks/strings/chunk.h:ChunkDB::FromConstChunk", "bricks/strings/chunk.h:ChunkDB::Find"]}
{"id": "C98", "title": "A query schema matches what its grammar says", "statement": "Evaluating a schema on a query calls the callback with exactly the values the schema's grammar derives for the range of terms, in the documented order, and stops when the callback throws; MatchQueryIntoVector gives all for the whole query, JustMatchQuery the first. What carries no data is found at most once. How sequences are grouped and whether they are written with >> or << makes no difference to what is found. Schemas made of blocks are the blocks as written. Each keyword and each dictionary entry is matched by exactly its word, whatever its case.", "quantifier": "all schemas of keywords, dictionaries, None, Void, |, &, >>, <<, Map and Filter, nested in any way, all functions in them, all queries and all callbacks, throwing ones included", "why_tests_cant": "blocks evaluate each other through callbacks and leave by exceptions thrown through them: tests try some nestings, and share blocks by type only if two happen to be of one type", "anchors": ["nlp/nlp.h:UnitImpl", "nlp/nlp.h:OrImplUnitUnit", "nlp/nlp.h:SeqImpl", "nlp/nlp.h:SeqImplUnitUnit", "nlp/nlp.h:MapImpl", "nlp/nlp.h:SchemaBlock::MapHelper", "nlp/nlp.h:SchemaBlock::FilterHelper", "nlp/nlp.h:MatchQueryIntoVector", "nlp/nlp.h:JustMatchQuery", "nlp/nlp.h:AnnotateQuery", "nlp/nlp_schema_begin.inl:DictionaryAnnotation"]}
{"id": "C99", "title": "Progress lines show their latest status", "statement": "A ProgressLine shows the latest status written to it where the cursor was, and nothing else of earlier ones, with its colors, and leaves the terminal as it was when destroyed. With MultilineProgress each line shows its latest status on its own row, in the order of creation, what was above stays, and the cursor is below; so it is when threads update different lines at the same time. GetUndecoratedString gives the latest status without colors.", "quantifier": "all numbers of lines, all sequences of creations and updates, all statuses (texts of one-column characters with any colors in between), all interleavings of the threads that update the lines", "why_tests_cant": "what a user sees is the sum of all that was ever printed, as the terminal interprets it; tests print to a terminal that nobody reads", "anchors": ["blocks/xterm/progress.h:ProgressLine::DoUpdate", "blocks/xterm/progress.h:ProgressLine::DoClearString", "blocks/xterm/progress.h:ProgressLine::~ProgressLine", "blocks/xterm/progress.h:MultilineProgress", "blocks/xterm/vt100.h:up", "blocks/xterm/vt100.h:down", "blocks/xterm/vt100.h:operator<<"]}
{"id": "C100", "title": "Rounded numbers are near and have so many digits", "statement": "RoundDoubleToString(v, n) gives a decimal number that is off v by at most half a unit of the n-th significant digit (up to a factor of 10^1e-10), with at most n digits from the first to the last that is not zero, no zeros at the end after a point, and none in front but one before the point; the sign is that of v, with a plus only if asked for. What is nearer to zero than 1e-16 is 0.", "quantifier": "all real numbers, all numbers of digits from one, with and without plus_sign", "why_tests_cant": "the position of the point, the carry to a power of ten and where the loop stops depend on the magnitude and the digits together; tests try a few dozen numbers", "anchors": ["bricks/strings/rounding.h:RoundDoubleToString"]}
{"id": "C101", "title": "A graph is written to DOT as it is", "statement": "AsDOT writes each node of the graph once, numbered in the order they were added, with a label that reads as the text given, whatever is in that, and each edge between the numbers of its two nodes, in the order they were added.", "quantifier": "all graphs each of whose nodes was added once and whose edges are between its nodes, all texts of labels, whatever other graphs the nodes have been in before", "why_tests_cant": "nodes are numbered by way of a map ordered by a key kept in the nodes themselves, from one graph to the next; tests write small graphs once", "anchors": ["bricks/dot/graphviz.h:Escape", "bricks/dot/graphviz.h:GenericGraph::AsDOT", "bricks/dot/graphviz.h:OrderNodesByOrderKey"]}
{"id": "C102", "title": "Names of groups stand for the groups they are given to", "statement": "In a regular expression for NamedRegexCapturer, a name stands for the (last) group with that name, counted as std::regex counts groups; what is matched is the regular expression with the names left out and nothing else changed.", "quantifier": "all regular expressions made of characters, escaped characters, groups with and without names, groups that do not capture and lookaheads, nested in any way", "why_tests_cant": "the groups are found by another regular expression that looks at one character before each match; tests have a few regular expressions with one level of groups", "anchors": ["bricks/strings/regex.h:NamedRegexCapturer"]}
