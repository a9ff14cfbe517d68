{"id": "C01", "title": "BithreadCircularBuffer is a FIFO byte queue", "statement": "Whatever is written through Writer views and committed with Push comes out through Reader views and Pop exactly once, in the same order and with the same bytes; GetDataSize is the number of committed-but-not-popped bytes and GetDataSize + GetFreeSize = GetTotalSize.", "quantifier": "every storage size > 0, every history of Write/fill/Push(n <= view size), Read/Pop(n <= view size), Clear", "why_tests_cant": "wrap-around interleavings of reader and writer offsets are unbounded; tests fix a handful of sizes", "anchors": ["stingraykit/io/BithreadCircularBuffer.cpp: Impl::Write/Push/Read/Pop/Clear/GetDataSize/GetFreeSize"]}
{"id": "C02", "title": "BithreadCircularBuffer reader and writer views never alias", "statement": "At any time the byte range handed to the reader and the byte range handed to the writer are inside the storage and disjoint, so filling a Writer view never changes bytes visible to a Reader; the view is non-empty whenever there is data (resp. free space).", "quantifier": "every reachable buffer state and every view size", "why_tests_cant": "needs an invariant over all reachable offset pairs", "anchors": ["stingraykit/io/BithreadCircularBuffer.cpp: Impl::Write/Read"]}
{"id": "C03", "title": "MemoryCircularBuffer (no discard) is a bounded FIFO", "statement": "Push appends all the bytes or throws BufferIsFullException leaving the content unchanged; Pop(n) locks a prefix of the stored bytes (at least one byte when n>0 and the buffer is non-empty, at most n) and releasing the reserver removes exactly that prefix; GetSize/GetFreeSize/CanPush agree with the content; a second Pop before release is rejected.", "quantifier": "every storage size > 0, every history of Push/Pop/release with any data", "why_tests_cant": "wrap-around cases over all sizes and offsets", "anchors": ["stingraykit/io/CircularBufferBase.h: CircularBufferBase<false>", "stingraykit/io/MemoryCircularBuffer.h"]}
{"id": "C04", "title": "MemoryCircularBuffer with DiscardOnOverflow keeps the newest bytes", "statement": "Push on a buffer with no outstanding reserver never throws and leaves exactly the last min(total, StorageSize) bytes of (old content ++ data); with an outstanding reserver an overflowing Push is rejected and nothing changes.", "quantifier": "every storage size > 0, content, data length (also longer than the storage) and history", "why_tests_cant": "all overflow amounts and wrap positions", "anchors": ["stingraykit/io/CircularBufferBase.h: CheckDataSize, ReleaseData, Push"]}
{"id": "C05", "title": "ICircularBuffer::Clear leaves an empty buffer", "statement": "After Clear (no outstanding reserver) GetSize is 0 and GetFreeSize is the storage size; with an outstanding reserver only the reserved bytes remain.", "quantifier": "every reachable state", "why_tests_cant": "depends on whether the stored data is wrapped around the end of the storage", "anchors": ["stingraykit/io/CircularBufferBase.h: Clear"]}
{"id": "C06", "title": "QueueCache never exceeds its capacity and accounts sizes exactly", "statement": "After every operation GetSize equals the sum of the mapped sizes of the stored values and is at most the capacity.", "quantifier": "every capacity, size mapper, key order and operation history (Set/TryGet/Remove/Clear)", "why_tests_cant": "quantifies over histories and arbitrary size mappers", "anchors": ["stingraykit/collection/QueueCache.h: QueueCache"]}
{"id": "C07", "title": "QueueCache returns the last value set", "statement": "TryGet(k) succeeds exactly when k was Set and not since removed, cleared or evicted, and then yields the value of the last Set; Remove(k) reports whether it was present; each evicted pair is signalled exactly once, with the value it had, in eviction order.", "quantifier": "every key, value, history", "why_tests_cant": "unbounded histories", "anchors": ["stingraykit/collection/QueueCache.h: Set/TryGet/Remove/EvictExpired"]}
{"id": "C08", "title": "FIFO and LRU eviction order", "statement": "When Set has to evict, a FifoCache evicts keys in the order of their last Set, an LruCache in the order of their last Set or successful TryGet; only as many as needed to get back to the capacity are evicted (the evicted keys are the shortest oldest prefix).", "quantifier": "every history", "why_tests_cant": "order over unbounded histories", "anchors": ["stingraykit/collection/QueueCache.h: EvictExpired, DoTryGet, MakeStamp"]}
{"id": "C09", "title": "TwoQueueCache holds each key in at most one of its queues and refines a map", "statement": "A key is never held twice, so TryGet returns the last value Set for a key still in the cache, Remove(k) makes k absent, GetSize counts every held value once and each sub-queue respects its capacity.", "quantifier": "all capacities and histories", "why_tests_cant": "cross-queue promotion and demotion chains are unbounded", "anchors": ["stingraykit/collection/TwoQueueCache.h"]}
{"id": "C10", "title": "TwoQueueCache loses nothing silently", "statement": "Every pair that leaves the cache without Remove/Clear/overwrite is signalled through OnEvicted exactly once, and no pair still held is signalled.", "quantifier": "all histories", "why_tests_cant": "conservation law over histories", "anchors": ["stingraykit/collection/TwoQueueCache.h: constructor connections, TryGet, Set"]}
{"id": "C11", "title": "A dictionary transaction behaves like a private copy of the map", "statement": "Inside a transaction Add/Set/Remove/RemoveWhere/Clear and the reads ContainsKey/Get/TryGet/GetCount/IsEmpty/enumeration/Find/ReverseFind behave exactly as on an ordinary sorted map initialised with the collection's content, and the collection itself does not change before Commit.", "quantifier": "every initial content, every operation sequence, keys and values", "why_tests_cant": "overlay (added/removed) corner cases over all sequences", "anchors": ["stingraykit/collection/TransactionalDictionary.h: Transaction", "stingraykit/collection/TransactionHelpers.h: SortedCollectionTransactionEnumerator"]}
{"id": "C12", "title": "Dictionary transaction Commit publishes the private copy, with an exact diff", "statement": "After Commit the collection equals the transaction's view; the diff given to observers, applied entry by entry to the old content, gives the new content, mentions only keys that changed and is empty (and no signal is sent) iff nothing changed; IsDirty is true iff view and content differ; Revert restores the content.", "quantifier": "every initial content and operation sequence", "why_tests_cant": "all sequences", "anchors": ["stingraykit/collection/TransactionalDictionary.h: Commit/Revert/Diff/IsDirty", "stingraykit/collection/TransactionHelpers.h: SortedCollectionTransactionDiffEnumerator"]}
{"id": "C13", "title": "Set transactions refine a private set copy", "statement": "Same as C11/C12 for TransactionalSet: results of Add/Remove/RemoveWhere/Clear/Contains/GetCount/enumeration, Commit, Revert, IsDirty, Diff.", "quantifier": "every initial set and operation sequence", "why_tests_cant": "all sequences", "anchors": ["stingraykit/collection/TransactionalSet.h", "stingraykit/collection/TransactionHelpers.h"]}
{"id": "C14", "title": "List transactions refine a private list copy and report a replayable diff", "statement": "Reads/updates inside a TransactionalList transaction behave as on a private vector copy; Commit publishes it; the diff, replayed with positional insert/remove, turns the old list into the new one; out-of-range indices are rejected without effect.", "quantifier": "every list, operation sequence", "why_tests_cant": "all sequences", "anchors": ["stingraykit/collection/TransactionalList.h: Transaction, Utils::MakeDiff"]}
{"id": "C15", "title": "Applying a list diff with Apply reproduces the list", "statement": "Feeding the diff of one TransactionalList transaction entry by entry to Apply in a transaction on an equal list gives the committed list.", "quantifier": "every pair of lists", "why_tests_cant": "all diffs", "anchors": ["stingraykit/collection/TransactionalList.h: Transaction::Apply, Utils::MakeDiff"]}
{"id": "C16", "title": "Enumerators of transactional collections are stable snapshots", "statement": "An enumerator/enumerable taken from a transactional collection or from a transaction keeps yielding the content at the moment it was taken, whatever is added, removed, committed or reverted later.", "quantifier": "every history of operations and live enumerators", "why_tests_cant": "copy-on-write aliasing over all histories", "anchors": ["stingraykit/collection/TransactionalDictionary.h: Utils::GetItemsHolder/CopyOnWrite", "stingraykit/collection/TransactionalSet.h"]}
{"id": "C17", "title": "At most one transaction at a time", "statement": "Under every schedule of threads at most one transaction object of a collection is live, and a waiting StartTransaction can proceed once it is destroyed.", "quantifier": "any number of threads, every interleaving", "why_tests_cant": "schedules", "anchors": ["stingraykit/collection/TransactionalDictionary.h: Transaction::Transaction/~Transaction"]}
{"id": "C18", "title": "CancellationToken handler protocol is safe", "statement": "If UnregisterCancellationHandler returned, the handler is not running and will not be called again; true is returned only if the handler was never called for this registration, and false only after a started cancellation completed; Cancel invokes a registered handler at most once.", "quantifier": "any number of threads calling Cancel, every interleaving of Register/Unregister/Cancel", "why_tests_cant": "schedules", "anchors": ["stingraykit/thread/CancellationToken.cpp"]}
{"id": "C19", "title": "A released TaskLifeToken stops its tasks", "statement": "Once Release has returned in a thread that is not itself running a guarded task, no guarded task of that token is running or will ever start; dummy testers always allow execution.", "quantifier": "any number of threads, every interleaving", "why_tests_cant": "schedules", "anchors": ["stingraykit/thread/TaskLifeToken.cpp"]}
{"id": "C20", "title": "Timer runs tasks in due order and never after their token is reset", "statement": "The worker always runs the earliest-due queued task and never before it is due; ties run in insertion order; after the token of a SetTimeout/SetTimer has been released the task does not start again; a one-shot task runs at most once and a periodic one is re-queued with its period.", "quantifier": "every history of SetTimeout/SetTimer/reset and every clock/worker schedule", "why_tests_cant": "schedules and clocks", "anchors": ["stingraykit/timer/Timer.cpp: CallbackQueue, RemoveTask, ThreadFunc, ExecuteTask"]}
{"id": "C21", "title": "Barrier releases threads only when all have arrived", "statement": "No thread returns from the n-th round of Wait before all required threads have entered that round, and exactly one caller per round gets true; holds if condition variables have no spurious wake-ups.", "quantifier": "any number of threads and rounds, every interleaving", "why_tests_cant": "schedules", "anchors": ["stingraykit/thread/Barrier.h"]}
{"id": "C22", "title": "Arithmetic coding round-trips", "statement": "Decoding the bit stream produced by ArithmeticCoder::Encode for any sequence of (symbolLow, symbolHigh, scale) yields, at each step, a probability inside [symbolLow, symbolHigh) of the encoded symbol, so the decoder recovers the sequence.", "quantifier": "every sequence of valid symbol intervals with scale up to 2^29", "why_tests_cant": "unbounded sequences; carry/underflow cases", "anchors": ["stingraykit/compression/ArithmeticCoder.h", "stingraykit/compression/ArithmeticDecoder.h"]}
{"id": "C23", "title": "ArithmeticCoder::EndOfData makes the stream decodable", "statement": "After EndOfData the emitted bits, followed by arbitrary bits, decode to the encoded sequence.", "quantifier": "every sequence", "why_tests_cant": "underflow state at the end is rare in tests", "anchors": ["stingraykit/compression/ArithmeticCoder.h: EndOfData"]}
{"id": "C24", "title": "Bit/byte staging buffers of the PPM coder preserve the bit stream", "statement": "The bytes passed to the consumer by BitsToBytesBuffer are the added bits packed MSB first (last byte zero-padded at EndOfData) and BytesToBitsBuffer returns the bits of the added bytes in order; EndOfData terminates.", "quantifier": "every bit sequence and every consumer chunking", "why_tests_cant": "wrap positions", "anchors": ["stingraykit/compression/ppm/PpmCompressor.h: BitsToBytesBuffer", "stingraykit/compression/ppm/PpmDecompressor.h: BytesToBitsBuffer"]}
{"id": "C25", "title": "BigUnsignedInteger arithmetic is exact", "statement": "Add, Subtract, Multiply, DivideWithRemainder, BitAnd/Or/Xor and shifts return the exact mathematical result (canonical, without leading zero blocks), Subtract throws iff the result would be negative, division satisfies a = q*b + r with r < b (and a/0 = 0 rem a).", "quantifier": "all numbers of any size", "why_tests_cant": "unbounded integers; carries across blocks", "anchors": ["stingraykit/BigNum.cpp"]}
{"id": "C26", "title": "BigUnsignedInteger operator < is the numeric order", "statement": "a < b holds exactly when the value of a is less than the value of b; it is a strict total order consistent with ==.", "quantifier": "all pairs", "why_tests_cant": "all pairs of multi-block numbers", "anchors": ["stingraykit/BigNum.cpp: operator <"]}
{"id": "C27", "title": "BigUnsignedInteger string conversion round-trips", "statement": "LoadFromString(ToString(base), base) gives back the number for every base 2..36, and ToString of a number loaded from a canonical digit string gives the string back.", "quantifier": "all numbers, all bases 2..36", "why_tests_cant": "all numbers", "anchors": ["stingraykit/BigNum.cpp: ToString/LoadFromString/Dump"]}
{"id": "C28", "title": "BitsGetter reads exactly the addressed bits; BitsSetter writes exactly them", "statement": "Get<Offset,Size> returns the big-endian number formed by the addressed bits; Set<Offset,Size>(v) makes a following Get return v mod 2^Size and changes no other bit; both throw (and change nothing) iff the buffer is too short.", "quantifier": "all buffers, offsets, sizes <= 64, values", "why_tests_cant": "all offset/size/value combinations", "anchors": ["stingraykit/BitsGetter.h: BitsGetterProxy, BitsSetterImpl"]}
{"id": "C29", "title": "Little-endian BitsSetter/BitsGetter round-trip", "statement": "For LittleEndian accessors Get<Offset,Size> after Set<Offset,Size>(v) returns v mod 2^Size.", "quantifier": "all sizes that are a multiple of 8", "why_tests_cant": "depends on the size being a power of two bytes", "anchors": ["stingraykit/BitsGetter.h: SwappableType use in BitsSetterImpl::Set / BitsGetterProxy"]}
{"id": "C30", "title": "BitStream write/read round-trip", "statement": "A sequence of Write<Size>(v) on a BitStream followed by Seek(0) and Reads with the same sizes returns the same values; Read advances the position by Size; length-prefixed and null-terminated strings round-trip.", "quantifier": "all sequences of sizes and values", "why_tests_cant": "all alignments and sequences", "anchors": ["stingraykit/io/BitStream.h"]}
{"id": "C31", "title": "CancellationToken: Sleep and Reset", "statement": "Sleep returns false only after Cancel; Reset on a token nobody is registered with leaves later and concurrent (un)registrations as safe as on a fresh token.", "quantifier": "every schedule of Sleep/Cancel/Reset/Register/Unregister, spurious wake-ups included", "why_tests_cant": "schedules", "anchors": ["stingraykit/thread/CancellationToken.cpp: Sleep, Reset, UnregisterCancellationHandler"]}
{"id": "C32", "title": "PacketBuffer is a bounded FIFO of packets", "statement": "Packets accepted by Process come out of Read in order, exactly once (unless the consumer declines, in which case the same packet is offered again), with their bytes and metadata unchanged - also while another packet is being copied in during the consumer callback; Process throws only for a packet larger than the buffer and refuses (drops or waits) only when the buffer is really too full; Read never throws.", "quantifier": "all storage sizes, packet sizes, both overflow policies and every interleaving of Process, Read, Clear, EndOfData, GetDataSize", "why_tests_cant": "wrap-around, padding and interleavings cannot be enumerated", "anchors": ["stingraykit/io/PacketBuffer.h: PacketBuffer::Process, Read, Clear, EndOfData", "stingraykit/io/BithreadCircularBuffer.cpp"]}
{"id": "C33", "title": "shared_ptr/weak_ptr destroy the object exactly once", "statement": "The object is destroyed exactly once, after the last shared_ptr to it is gone and never before; the control block is deleted exactly once, when no shared_ptr or weak_ptr is left; weak_ptr::lock yields either an owner of a live object or null when no owner was left; release_if_unique succeeds iff the caller is the only owner; use_count is the number of owners.", "quantifier": "every interleaving of copies, releases, weak copies, lock, release_if_unique, use_count and dereferences by any number of threads", "why_tests_cant": "schedules of atomic operations cannot be enumerated by tests", "anchors": ["stingraykit/shared_ptr.h: Detail::SharedPtrImpl, shared_ptr, weak_ptr", "stingraykit/TypeErasure.h"]}
{"id": "C34", "title": "promise/future hand over one result to every waiter", "statement": "A shared state receives at most one result (later set_value throws, later set_exception is ignored); every get() on it returns that result; wait() reports ready only when it is there; a result, or the destruction of the promise (BrokenPromise), wakes every waiter; get_future succeeds at most once per shared state.", "quantifier": "every interleaving of set_value, set_exception, promise construction/destruction/swap, get_future, wait, get, cancellation and spurious wake-ups by any number of threads", "why_tests_cant": "schedules and spurious wake-ups cannot be enumerated", "anchors": ["stingraykit/future.h: promise, future, shared_future, Detail::future_impl_base"]}
{"id": "C35", "title": "Signals: exact delivery, no slot call after disconnect, populator neither loses nor repeats", "statement": "For a threadsafe signal with synchronous connections: (1) once the destructor of a connection's Token has returned the slot is never called again and no other thread is still inside it; (2) two threads are never inside the same connection's slot; (3) each call of the signal calls, in connection order and exactly once each, the slots connected when it started, skipping only those whose Token has been destroyed meanwhile, even if slots connect, disconnect, emit or throw std::exception; (4) if the guarded state is changed only under a signal_locker together with an emission, every connection made with sendCurrentState receives the whole history of changes in order, without loss or duplication.", "quantifier": "every number of threads and connections, every interleaving of connects, disconnects, emissions, lockers and slot bodies (including re-entrant ones)", "why_tests_cant": "the windows between the handler snapshot and the calls, and between unlinking and releasing, are scheduling dependent; tests exercise a handful of interleavings", "anchors": ["stingraykit/signal/signals.h: SignalImplBase::Connect, Connection::~Connection, CancellableStorage::Invoke, SignalImpl::InvokeAll, signal_locker", "stingraykit/thread/TaskLifeToken.cpp: TryStartExecution, FinishExecution, Kill"]}
{"id": "C36", "title": "flat_map/flat_set behave as a map under their comparator", "statement": "After any sequence of inserts, hinted inserts, emplaces, operator[] and assignments, erasures by key or position and clears, iterating a flat_map/flat_set yields exactly the entries the same sequence leaves in a mathematical map keyed by comparator-equivalence, in strict key order; insert reports success iff the key was absent and never changes an existing entry; hints never change the result; find/count/at/lower_bound/upper_bound agree with that map. (The allocator-extended copy constructor drops a stateful comparator and breaks this: refuted.)", "quantifier": "every strict weak order, every key/value type, every finite sequence of operations with valid iterators, every hint", "why_tests_cant": "Sequences, comparators and hints are unbounded; binary-search boundaries fail only for particular sizes and positions", "anchors": ["stingraykit/collection/flat_map.h: flat_map", "stingraykit/collection/flat_set.h: flat_set"]}
{"id": "C37", "title": "ordered_map/ordered_set iterate in insertion order and stay a map", "statement": "Any history of inserts (with or without hint), emplaces, operator[], writes through iterators, erasures by key, iterator or range, and clears leaves an ordered_map/ordered_set iterating over exactly the surviving entries in insertion order (hinted inserts go just before the hint); no two entries share a key; re-inserting a present key changes nothing; an insertion that fails with an exception changes nothing; iterators keep denoting their entry until it is erased; find/count/at agree. Copies reproduce the content when comparators agree. (Refuted: self copy-assignment keeps the content; copy construction keeps it under a stateful comparator.)", "quantifier": "every strict weak order and comparator object, every finite history of calls with valid iterators, every choice of failing allocation", "why_tests_cant": "The list and the sorted index must agree after every history; histories, hints and failure points are unbounded", "anchors": ["stingraykit/collection/ordered_map.h: ordered_map", "stingraykit/collection/ordered_set.h: ordered_set"]}
{"id": "C38", "title": "AhoCorasick reports exactly the occurrences of its patterns", "statement": "After Add of any patterns and Build, Search over any text terminates and calls the callback exactly once for every occurrence of every distinct non-empty pattern, with that pattern, its index and the true start offset, in order of occurrence end and longer pattern first; Add/Build after Build and Search before Build throw. (Refuted: every index returned by Add is reported - a repeated pattern is reported only under its last index and an empty pattern never.)", "quantifier": "every list of byte patterns (overlapping, nested, repeated, empty) and every byte text", "why_tests_cant": "Failure links interact across all patterns and all texts; a wrong link loses matches only for particular combinations", "anchors": ["stingraykit/string/AhoCorasick.h: AhoCorasick::Add, Build, Search"]}
{"id": "C39", "title": "PagedBuffer is one byte stream for reader, writer and Pop", "statement": "Every run of committed bytes a Read hands to its consumer is exactly that part of the concatenation of what the Pushes committed; a Push that returns has committed exactly its data and one that throws a prefix of it, never interleaved with another Push; GetStorageSize is what was committed minus what was popped; Read never starts at a popped byte. If no consumer is handed uncommitted bytes and no Pop drops a page under a running Read, the internal LogicExceptions are never thrown, and a sequential consumer gets each committed byte exactly once, in order, Read sleeping only when less than a chunk is left. (Refuted outside those conditions: a Pop of already-read bytes during a Read makes bytes be delivered twice; a Pop of unread bytes during a Read loses bytes that were not popped or makes Read throw; a Read racing a Push on the tail page receives uncommitted bytes and makes the next Read throw; a cancelled Read delivers its bytes again.)", "quantifier": "every page size and chunk size, every interleaving of one reader, serialised writers, Pop, Seek; every data, every partial write failure and every number of bytes a consumer takes", "why_tests_cant": "The page I/O runs with the mutex released, so the property is about all interleavings of Push, Pop, Seek with a Read in progress", "anchors": ["stingraykit/io/PagedBuffer.cpp: PagedBuffer::Read, Push, Pop, Seek, GetStorageSize", "stingraykit/io/PagedBuffer.h: PagedBuffer"]}
{"id": "C40", "title": "inplace_vector is a sequence and never misuses its raw storage", "statement": "After any sequence of push_back/emplace_back, clear, copy construction, copy and move assignment - including calls whose element constructors throw at any point - every inplace_vector is a well-defined sequence under size() and at(); a call that returns has the sequence effect of the same std::vector call, a throwing assignment leaves the target empty and the source of a copy unchanged, and a call throws only if an element constructor did. Exactly the in-place slots in use hold a live object, so no element is leaked, constructed over another or destroyed twice. (Refuted: assigning a vector to itself keeps it - by copy or by move it empties the vector.)", "quantifier": "every in-place capacity, every program over any number of vectors, every point at which a constructor throws", "why_tests_cant": "Every crash point of every loop and every aliasing of source and target must be covered", "anchors": ["stingraykit/collection/inplace_vector.h: inplace_vector"]}
{"id": "C41", "title": "IntrusiveList holds exactly what was pushed and not erased", "statement": "After any program of push_back (of elements that are in no list) and erase (of any element) over any number of lists, iterating a list forwards yields exactly the elements pushed to it and not erased, in order, backwards the reverse, in exactly that many steps; empty() agrees; erasing an element, also while iterating, leaves iterators to other elements walking over what remains. (Refuted without the precondition: pushing an element that is in a list silently loses elements of that list or makes iterating it endless.)", "quantifier": "every number of lists and elements, every program of pushes and erases", "why_tests_cant": "Pointer structures: a wrong link shows only for particular neighbours and orders", "anchors": ["stingraykit/collection/IntrusiveList.h: IntrusiveList, IntrusiveListNode"]}
{"id": "C42", "title": "Task executors run every task once, in order, one at a time", "statement": "ThreadTaskExecutor: whatever threads call AddTask and whenever, the tasks taken so far are exactly the first ones added, each exactly once and in the order added; two tasks never overlap, a throwing task does not disturb the others; the worker sleeps only when there is nothing to run (no lost wake-up) and can always work the queue off by itself; when the destructor returns every added task has been taken. ThreadlessTaskExecutor: the same order and exactly-once for ExecuteTasks and ClearTasks; however many threads call ExecuteTasks, also from inside a task, one is in it and one task runs at a time; a call refuses only while another one is in progress (also after cancellation, interruption or exceptions) and, not cancelled, returns with the queue empty.", "quantifier": "every number of tasks and calling threads, every interleaving, every point of cancellation, every throwing or expired task", "why_tests_cant": "Depends on the interleaving of adders, the worker, cancellation and the tasks themselves", "anchors": ["stingraykit/thread/ThreadTaskExecutor.cpp: ThreadTaskExecutor", "stingraykit/thread/ThreadlessTaskExecutor.cpp: ThreadlessTaskExecutor"]}
{"id": "C43", "title": "ThreadPool runs every accepted task once on at most maxThreads threads and loses no wake-up", "statement": "Whatever threads call TryQueue, Queue, WaitQueue and CanQueue (also from inside tasks), and however the pool's threads are scheduled, idle out and are reaped: a task is accepted at most once, started at most once and only after being accepted, finished at most once; never more than maxThreads accepted tasks are unfinished and never more than maxThreads threads exist; TryQueue returns false (Queue throws) and WaitQueue goes to sleep only if maxThreads accepted tasks were unfinished when that attempt began; CanQueue is true exactly if fewer are; until the destructor starts no accepted task is lost: from every reachable state the pool's own threads can run it to its end; a WaitQueue that is asleep and not yet woken sleeps only while every one of the maxThreads threads has a task or is about to broadcast; reaping an idle worker never hits one with a task and never waits for a thread that needs the pool's mutex. (Refuted: an accepted task is always run - the destructor drops accepted tasks that have not started.)", "quantifier": "every maxThreads > 0, with and without idle timeout, every number of tasks, callers and waiters, every interleaving of the critical sections, every timeout and spurious wake-up, every point of destruction", "why_tests_cant": "The interleavings of two mutexes per worker, timeouts, reaping and waiters cannot be enumerated", "anchors": ["stingraykit/thread/ThreadPool.cpp: ThreadPool, WorkerWrapper", "stingraykit/thread/ThreadPool.h: ThreadPool"]}
{"id": "C44", "title": "DataBuffer is a lossless bounded FIFO between threads, with no lost wake-up and a proper end", "statement": "Whatever threads call Process, Read, WaitForData, EndOfData, SetException and Clear on a DataBuffer: every history is one of a bounded first-in-first-out byte queue: Process returns exactly how many of its first bytes were appended (whole input packets), what consumers are offered are the oldest bytes in whole output packets, what they report is removed, so the bytes taken are exactly a prefix of the bytes accepted, unaltered; data is discarded only when there is no room for an input packet or the required free space, and then OnOverflow reports it; a sleeping writer, reader or WaitForData sleeps only while its reason holds; a writer and a reader never wait for each other when RequiredFreeSpace <= size - q + gcd(p,q) (p, q the packet sizes); the view given to a consumer does not change while it is used; EndOfData or the exception reaches the consumer only after all whole packets, and nothing moves afterwards, if it is not raised while a Process is in progress. (Refuted: without these provisos a writer and a reader, or WaitForData, can wait for each other for ever; data can follow EndOfData; a consumer that reports a broken packet loses the rest of its offer.)", "quantifier": "every storage size, packet sizes, required space, overflow mode, number of threads, data, consumer answer and exception, every interleaving of the critical sections with the unlocked byte-by-byte copy, every cancellation", "why_tests_cant": "Interleavings of writers, the reader and the unlocked copies over a circular storage cannot be enumerated", "anchors": ["stingraykit/io/DataBuffer.h: DataBuffer", "stingraykit/io/SharedCircularBuffer.h: SharedCircularBuffer, SharedWriteSynchronizer", "stingraykit/io/BufferedDataConsumer.cpp: Process", "stingraykit/io/BufferedDataSource.cpp: Read"]}
{"id": "C45", "title": "AsyncByteStream writes behind without losing, reordering or tearing accepted bytes", "statement": "Whatever sequence of Write, Seek, Sync and Reconfigure is called, and however the worker is scheduled and the underlying stream splits its writes: at any moment the file plus the pending operations equals the file a plain stream would hold after writing, in order, exactly the bytes every Write reported as accepted (merging a Write into a queued page never reorders it with an overlapping later one); Write accepts a prefix, none only if it is given none or the newest buffer is full, and moves the position by that much; the length used for SeekMode::End is the plain stream's; when a blocking Sync returns, or the destructor's stop is processed, everything accepted is in the file; the pages waiting in a buffer fit in it and the internal consistency checks never fail; the worker can always go on and needs at most a bounded number of steps; after an exception of the underlying stream every call throws and the file is never touched again. (Refuted: that destroying the stream without having seen an exception means everything is written.)", "quantifier": "every initial file, buffer size, page preallocation, sequence of calls and data, every interleaving with the worker, every split, partial write and exception of the underlying stream", "why_tests_cant": "Interleavings of the user's calls with the worker, the positions at which pages may be merged, and partial writes cannot be enumerated", "anchors": ["stingraykit/io/AsyncByteStream.h: AsyncByteStream, StreamOpData", "stingraykit/io/AsyncByteStream.cpp: Write, Seek, Sync, Reconfigure, ThreadFunc", "stingraykit/io/BithreadCircularBuffer.cpp: BithreadCircularBuffer"]}
{"id": "C46", "title": "BufferedStream reads exactly what the underlying stream holds at the position it tells", "statement": "With the default alignment, for every history of Read, Write, Seek and Tell on a BufferedStream constructed over a stream at its start, and however the underlying stream splits its reads and writes: every result is one the same calls could give on the plain stream (Read returns the bytes at the current position and moves it by their number, Write writes there, Seek and Tell agree), reads of buffered bytes do not touch the underlying stream, and a Read that is not cancelled is short only if the underlying stream returned nothing. With any alignment the same holds, and every underlying read starts at a multiple of it, if the underlying stream reads as much as it can and no Read starts past the end; then Read returns everything up to the end of file. (Refuted: with alignment > 1, a Read past the end or after a short underlying read returns bytes that are not in the file; over a stream not at its start Tell and Read disagree; after a Write that threw, Read returns stale bytes.)", "quantifier": "every file, buffer size, alignment, sequence of calls, cancellation, and every choice of partial reads and writes of the underlying stream", "why_tests_cant": "Histories of calls and short reads are unbounded", "anchors": ["stingraykit/io/BufferedStream.h: BufferedStream", "stingraykit/math.h: AlignDown"]}
{"id": "C47", "title": "Times and calendar dates convert to each other by the Gregorian calendar", "statement": "Converting a time to broken-down time and back gives the time again, for every time zone offset; the date is the Gregorian date obtained by counting days from 1970-01-01 one at a time in either direction, with the right time of day, weekday and day of the year; converting a valid date, with any hours, minutes, seconds, day or month overflow, gives the second it names; GetMaxDaysInMonth is right. (Refuted: before the epoch BreakDown gives negative milliseconds and the next second; FromBrokenDownTime throws for 1969-12-31T23:59:59; a month below 1 reads outside a table; BrokenDownTime::Compare is not chronological.)", "quantifier": "every instant and every date within 28500 years of the epoch (the seconds-level conversion: every instant within 2^55 s), every time zone", "why_tests_cant": "The input space is about 2^60 instants", "anchors": ["stingraykit/time/posix/TimeEngine.cpp: gmtime64_r, timegm64, MillisecondsFromBrokenDown, BrokenDownFromMilliseconds", "stingraykit/time/BrokenDownTime.cpp", "stingraykit/time/Time.cpp: BreakDown, FromBrokenDownTime"]}
{"id": "C48", "title": "MJD, BCD, NTP, FILETIME, day-count, rounding and ISO-duration conversions of Time are exact", "statement": "From the epoch on: GetMjd is 40587 plus the days since 1970-01-01, MjdToEpoch of GetMjd and the UTC BCD time is the time to the second, NTP seconds convert back and forth, DaysTo counts calendar days for any time of day and zone, RoundToMilliseconds rounds to nearest with halves away from zero, and FromIso8601 of ToIso8601 of a duration with the same base is the duration to the second (base not a 29 February, below 32768 days; without base below 32768 hours). (Refuted: GetMjd and DaysTo before the epoch; GetMjd with the default local BCD time; FromWindowsFileTime for any time that is not a whole second; NtpTimestamp drops the fraction; ISO durations from 29 February or of 32768 days; TimeCmp equality is not transitive.)", "quantifier": "every time from the epoch for 28500 years, every duration below the bounds, every zone", "why_tests_cant": "The input space is about 2^60 instants times as many durations", "anchors": ["stingraykit/time/Time.cpp", "stingraykit/time/Time.h", "stingraykit/time/NtpTimestamp.cpp"]}
{"id": "C49", "title": "Data source and consumer adapters neither lose, repeat nor reorder bytes", "statement": "ConsumeAll hands over the bytes in order, all of them unless cancelled, and returns if the consumer always takes something; array, stream and mediator sources, DataTaker, DataSkipper, DataAligner, ReactiveDataSource and ReadToEnd deliver exactly the bytes they stand for (the first count, those after the first count, whole multiples of the alignment, everything then EndOfData once) and leave the others in the source, unless the token is cancelled; interceptors see exactly what was taken; packets cut and joined are exact. (Refuted: DataTaker never returns when a chunk is longer than what is to be taken, nor does ReadToEnd of a DataTaker whose count is reached; a cancellation loses buffered bytes in DataAligner, BufferedDataMediator and ByteStreamDataSource and is reported as success by SkippingConsumer and ConsumerDepacketer; DataAligner withholds the tail at the end of data, and without buffer reading to the end never returns; PipeDataSource drops data a consumer does not take and throws when it takes part; ConsumerPacketer throws on short data.)", "quantifier": "every source content and chunking, every consumer (how much it takes at each call, when it cancels), every composition of adapters", "why_tests_cant": "Consumers and chunkings are unbounded sequences of choices", "anchors": ["stingraykit/io/IDataSource.h: ConsumeAll, ReactiveDataSource, InterceptingDataConsumer", "stingraykit/io/DataUtils.h", "stingraykit/io/DataAligner.h", "stingraykit/io/BufferedDataMediator.h", "stingraykit/io/ByteArrayDataSource.h", "stingraykit/io/ByteStreamDataSource.h", "stingraykit/io/PipeDataSource.cpp", "stingraykit/io/ByteDataConsumer.cpp", "stingraykit/io/DataSourceReader.cpp", "stingraykit/io/DataPacketer.h"]}
{"id": "C50", "title": "BithreadPipe and SynchronizedPipe deliver exactly what was written", "statement": "BithreadPipe with one writing thread and any number of readers: what the readers get, in order, is what was written, in order, with nothing lost, repeated or mixed (of a Write that threw, a front part); a Write returns only when its data have all been read; no reader sleeps while data are there and the writer does not sleep when they have been read. SynchronizedPipe with any writers: the inner pipe gets whole packets one after the other (a front part of a packet whose Write threw), never interleaved, and no writer sleeps while the pipe is free. (Refuted: with two writers in BithreadPipe the first's data vanish though its Write reports success, and a cancelled writer strands another for ever; a Write that throws may have been delivered in full; an empty Write blocks until a reader comes, and that reader gets zero bytes.)", "quantifier": "every interleaving of any number of threads, every sequence of reads and writes with any sizes, spurious wake-ups, cancellations and timeouts", "why_tests_cant": "Losses depend on the interleaving of writer, readers, wake-ups and cancellations, and on all sizes", "anchors": ["stingraykit/io/BithreadPipe.h: BithreadPipe", "stingraykit/io/SynchronizedPipe.h: SynchronizedPipe", "stingraykit/io/IOutputByteStream.h: WriteAll, CheckedWriteAll"]}
{"id": "C51", "title": "Memory, chunked and window streams are files: reads, writes and seeks act on the bytes at the position", "statement": "MemoryByteStream (growing, fixed, const; up to 2 GB) gives for every sequence of Read, Write, Seek and Tell the answers of a byte sequence with a position: reads give the bytes there, writes replace them (and grow or stop at the end), seeks outside throw and change nothing. ChunkedMemoryByteStream behaves as the concatenation of its chunks, reading across chunk boundaries, seeking and telling exactly. ByteStreamWithOffset and ByteStreamWithOffsetAndSize answer as a file of their own and touch no byte outside their window. (Refuted: a chunked Write that goes over a chunk boundary throws after having changed the bytes up to it; appending after reading to the end before empty chunks throws; no Seek works on a MemoryByteStream of 2 GB to 4 GB.)", "quantifier": "every content and division into chunks, every window, every sequence of operations with any sizes, offsets and seek modes, every split of reads and writes by the stream underneath", "why_tests_cant": "Operation sequences, contents and boundaries are unbounded", "anchors": ["stingraykit/io/MemoryByteStream.h: BasicMemoryByteStream", "stingraykit/io/ChunkedMemoryByteStream.h: ChunkedMemoryByteStream", "stingraykit/io/ByteStreamWithOffset.h: ByteStreamWithOffset", "stingraykit/io/ByteStreamWithOffsetAndSize.h: ByteStreamWithOffsetAndSize"]}
{"id": "C52", "title": "ReadAll, ReadToEnd, WriteAll, BufferedPipe and ReadLine neither lose nor invent bytes", "statement": "ReadAll returns, with the front of the stream, and with as much as asked unless the stream ends or the token is cancelled; CheckedReadAll returns exactly the next n bytes or throws; ReadToEnd returns everything there is, whatever the initial size and the chunking; WriteAll reports exactly the front part that was accepted and CheckedWriteAll returns only when everything was; BufferedPipe delivers the same bytes as the pipe under it and its Peek says no only when nothing is there; ReadLine called once for each line of a text ended by LF or CR LF gives exactly the lines, and throws PipeClosed only when nothing is left. (Refuted: ReadToEnd over a pipe that throws PipeClosed at its end never returns what it has read; ReadLine throws on a CR that LF does not follow and what it read of the line is lost, as with a cancellation; a cut-off line is returned like a whole one.)", "quantifier": "every stream (as a state machine: what each Read and Write takes, when it fails or is cancelled), every size, every text", "why_tests_cant": "The splits of reads and writes by the stream below are unbounded sequences of choices", "anchors": ["stingraykit/io/IInputByteStream.h: ReadAll, CheckedReadAll, ReadToEnd", "stingraykit/io/IOutputByteStream.h: WriteAll, CheckedWriteAll", "stingraykit/io/BufferedPipe.cpp: BufferedPipe", "stingraykit/io/PipeReader.cpp: PipeReader::ReadByte, PipeReader::ReadLine"]}
{"id": "C53", "title": "ByteArray and ByteData views show exactly the bytes they were cut to and never reach outside", "statement": "Every ByteArray view, made by any offsets and limits, also after the shared vector was cleared, gives byte i or throws and never reads outside of the vector; cutting inside of a view gives exactly those bytes and can be repeated; append and RequireSize add at the end of an unlimited view, throw on a limited one and leave limited views with all their bytes as they were; == is equality of the bytes, < the lexicographic total order; a view serialized and read back has the same bytes. A chain of ByteData narrowings (offset + size below 2^64) throws exactly when one does not fit and otherwise shows exactly the bytes. (Refuted: ByteData(d, offset, size) does not notice that offset + size overflows and lets operator[] outside of the block; ByteArray(a, offset) of a limited array with an offset behind its end, and ByteArray(a, offset, NoSizeLimit), show bytes outside of a; ByteArray(a, offset, n) of an array with an offset may give fewer than n bytes instead of throwing; clear() of a view empties all views and what is appended to it afterwards may not show.)", "quantifier": "every vector, every view (all offsets and limits of 64 bits), every chain of narrowings", "why_tests_cant": "All contents, offsets and sizes up to 2^64, including those where the sums wrap", "anchors": ["stingraykit/collection/ByteData.h: BasicByteArray, BasicByteData"]}
{"id": "C54", "title": "The UTF-8 helpers agree with UTF-8: iteration, length, substrings, lower case and order are those of the code points", "statement": "For every UTF-8 text, with anything around it: Get gives the code point, Next moves behind it and Prev back before it; walking gives exactly the code points, Utf8Strlen their number; Utf8Validate accepts it; Utf8Substring by symbols gives exactly those symbols and throws for a position behind the end, by bytes it never cuts a symbol, starts at the first at or behind the position and takes as many as fit; Utf8ToLower lowers exactly the Latin and Cyrillic U+0401..U+042F letters and is idempotent; comparing texts compares their code points (lowered, without case). Of arbitrary bytes Utf8Validate accepts exactly the sequences of a lead byte with as many continuation bytes as it announces, and Get throws exactly where Next does. (Refuted: it accepts overlong forms, surrogates and numbers above U+10FFFF, and Get returns them; U+0400 is not lowered; a throwing Next leaves the position moved.)", "quantifier": "every sequence of code points, every sequence of bytes, every position and count", "why_tests_cant": "All texts and all byte strings; the failing encodings are rare among them", "anchors": ["stingraykit/string/Utf8IteratorRange.h: Utf8IteratorRange", "stingraykit/string/Utf8StringUtils.h: Utf8Strlen, Utf8Validate, Utf8Substring", "stingraykit/string/Unicode.cpp: Utf8ToLower, Utf8Collator"]}
{"id": "C55", "title": "Hexadecimal text and UUIDs come back as they were, and everything else is refused", "statement": "FromHex of an integer type gives the value of every numeral of it that fits (either case, any leading zeros), is out of range for the others and a format error for everything else; ToHex writes the value in the least number of digits, at least the width; of every unsigned value FromHex(ToHex(v, width, capital)) is v. ByteArrays come back from their hex text, with or without 0x, padded with zero bytes for the width. HexDump (width above 0, up to 2^32 bytes) shows every byte once, at its offset. UUID::FromString accepts exactly the format, UUIDs come back from ToString, texts in lower case; UUIDs are ordered as their texts; a UUID marked random has version 4 and variant 10 and keeps all other bits. (Refuted: FromHex(ToHex(v)) throws for every negative v of a signed type; HexDump with width 0 never returns; ShortHexDump of a collection never shows that bytes were left out.)", "quantifier": "every value and text, every width and case, all byte sequences, all UUIDs", "why_tests_cant": "All values, texts and byte sequences", "anchors": ["stingraykit/string/Hex.h: FromHex, ToHex, HexDump, ShortHexDump", "stingraykit/UUID.cpp: UUID"]}
{"id": "C56", "title": "Plain collections keep what was put into them, and enumerators are snapshots", "statement": "For every strict weak order: dictionaries and sets over ordered containers (MapDictionary, FlatMapDictionary, SortedSet, FlatSortedSet) are finite maps up to equivalence: Add is refused exactly for a present key and otherwise adds just that key, Set replaces the value of a key and keeps the rest, Remove removes just that key, Find and ReverseFind enumerate from the key on, forwards or backwards, RemoveWhere removes exactly what satisfies the predicate and returns the number; whether the container was copied first makes no difference. Multimaps and multisets keep the values of a key in the order they were added; RemoveFirst removes the first that matches, RemoveAll all of the key and nothing else. Lists do what their positions say and refuse positions outside. Whatever changes, clears and assignments follow, a live enumerator goes on showing what the collection held when it was made, and keeps that container alive. (Refuted: MultiMapDictionary/SortedMultiSet::ReverseFind of the greatest key is empty, and of a key below all others reads before the first element; an enumerator made inside RemoveWhere's predicate sees the removals.)", "quantifier": "every comparator that is a strict weak order, every content, key and value, every history of operations and of enumerators made and destroyed", "why_tests_cant": "All comparators, contents and histories", "anchors": ["stingraykit/collection/GenericDictionary.h: GenericDictionary", "stingraykit/collection/GenericSet.h: GenericSet", "stingraykit/collection/GenericList.h: GenericList", "stingraykit/collection/MultiMapDictionary.h: MultiMapDictionary", "stingraykit/collection/SortedMultiSet.h: SortedMultiSet"]}
{"id": "C57", "title": "Observers of a collection always know its exact content", "statement": "Of every observable dictionary (ordered by key or by insertion), set, list, multimap and multiset, and for every history of calls: an observer connected at any time, whose copy is changed by the events alone (first those of the populator), has after every single event exactly the content the collection has at that moment and at the end the final content: up to equivalence of keys for dictionaries and sets, with positions for lists, the values of every key in order for multimaps, the number of every value for multisets; Added comes only for what is not there, Updated and Removed only for what is there, with the value that was there. The calls change the content and return what those of the plain collection do. The observable value of a dictionary key or set entry has signalled last what Get returns. (Refuted: a handler that changes the collection makes later observers see the events in the wrong order; SortedObservableMultiSet::RemoveWhere can remove another element than the one chosen; RemoveFirst/Remove signal the argument instead of the stored value; with a comparer finer than the order the key's observable value misses changes.)", "quantifier": "every comparator that is a strict weak order, every content, every history of calls before and after the observer connects", "why_tests_cant": "All contents and histories of calls", "anchors": ["stingraykit/collection/ObservableDictionaryWrapper.h: ObservableDictionaryWrapper", "stingraykit/collection/ObservableSetWrapper.h: ObservableSetWrapper", "stingraykit/collection/ObservableListWrapper.h: ObservableListWrapper", "stingraykit/collection/MultiMapObservableDictionary.h: MultiMapObservableDictionary", "stingraykit/collection/SortedObservableMultiSet.h: SortedObservableMultiSet", "stingraykit/collection/ObservableDictionaryKeyValue.h: ObservableDictionaryKeyValue", "stingraykit/collection/ObservableSetEntry.h: ObservableSetEntry"]}
{"id": "C58", "title": "Integers and sizes written as text come back, and every other text is refused", "statement": "For bool and every signed or unsigned integer type of 8 to 64 bits: FromString accepts exactly the texts of an optional sign and digits whose number fits the type, however long, and returns that number; it reports out-of-range for other numbers, a format error for other texts and an argument error for the empty one, and never overflows silently. ToString writes the one canonical text (no plus, no leading zero, no minus zero), never leaving its 32-byte buffer, and FromString gives the number back; text to number to text is the identity exactly on canonical text. ToHumanReadableSize takes the biggest unit (1024^i, up to E) in which the nearest count is within the allowed error and FromHumanReadableSize reads it back within that error. (Refuted: a lone sign reads as 0; -0 is refused for unsigned types; bool and char do not come back: \"true\" is refused and the char '5' becomes 5; \"16E\" is read as 0; sizes within the error of 2^64 cannot be written; text with the optional blank is not read back.)", "quantifier": "every integer type of the library, every text, every value, every size and allowed error", "why_tests_cant": "All texts of all lengths, all 2^64 values", "anchors": ["stingraykit/string/ToString.h: SafeEvaluator, TypeFromStringInterpreter::ParseIntegralType, FromString", "stingraykit/string/string_stream.cpp: basic_string_ostream::InsertIntegral, Insert", "stingraykit/string/HumanReadableSize.cpp: ToHumanReadableSize, FromHumanReadableSize"]}
{"id": "C59", "title": "string_view searches, parts and comparisons mean what they say, and read nothing outside the view", "statement": "For all views, arguments and positions: find returns the first occurrence from the position on, rfind the last one up to the position, find_first_of / find_first_not_of the first position whose character is / is not in the set, find_last_of / find_last_not_of the last one, npos exactly if there is none; substr, remove_prefix, remove_suffix and at give exactly the part asked for or throw; starts_with and ends_with are prefix and suffix; the comparison operators are the strict total lexicographic order by character code. No character outside the view is read. (Refuted: find_first_not_of and find_last_not_of with an empty set; find_last_of / find_last_not_of on an empty view or from a position outside it read outside; sizes that differ by 2^31 or more: a view of 2^32 characters compares equal to the empty one.)", "quantifier": "every view, argument, set and position", "why_tests_cant": "All strings of all lengths", "anchors": ["stingraykit/string/string_view.h: basic_string_view"]}
{"id": "C60", "title": "StringUtils: replacing, splitting, stripping, padding, joining and the edit distance of strings", "statement": "For all strings: ReplaceAll with a non-empty pattern ends and replaces every occurrence, from the left, never looking at what it put in; replacing, filtering and removing characters touch exactly those characters; StartsWith, EndsWith, Contains, ExtractPrefix/Suffix and RemovePrefix/Suffix mean what they say; Split with a non-empty delimiter (or any of a set of characters) ends and gives the pieces of cutting at the leftmost delimiter, at most limit times; joining the pieces with the delimiter gives the string back and splitting a join of pieces without the delimiter character gives the pieces back; Strip removes exactly the longest ends made of the given characters; Justify pads up to the width; StringJoiner writes prefix, items with separators, suffix; EditDistance is the least number of insertions, deletions and replacements. (Refuted: ReplaceAll with an empty pattern on a non-empty string and Split with an empty delimiter never end; First() on a SplitStringRange does not start over; a StringRef finds text behind its end and substr can leave it; StringJoiner without prefix drops separators after leading empty items.)", "quantifier": "every string, pattern, delimiter, set, limit and width", "why_tests_cant": "All strings of all lengths, and termination of loops", "anchors": ["stingraykit/string/StringUtils.h: ReplaceAll, FilterOut, Split, SplitStringRange, StringRef, Join, Strip, LeftJustify, RightJustify", "stingraykit/string/StringUtils.cpp: EditDistance", "stingraykit/string/ToString.h: StringJoiner"]}
{"id": "C61", "title": "math helpers: alignment, gcd/lcm, powers, decimal fractions, NumericRange, bit operations, IntegerBuilder", "statement": "For all arguments: AlignDown gives the greatest multiple not above the value, AlignUp the least not below it when value + boundary - 1 fits; Gcd and Lcm are the greatest common divisor and (modulo 2^64) the least common multiple; IsPowerOfNumber accepts exactly the powers; CalculateFractionRemainder and ParseDecimalFraction give a proper fraction (or one, as overflow) that is the exact one rounded to the asked precision, up always from one half on and never below 4/9 (radix 10), when the digits fit into 64 bits, and refuse digits that do not fit; NumericRange's Contains, Intersect, IsIntersecting, Union and Clamp are those of the ranges; TestBit/SetBit/ResetBit/FlipBit touch exactly one bit, ReverseBits reverses; IntegerBuilder concatenates unsigned fields. (Refuted: AlignUp near the end of the type moves aligned values to 0, and negative values are aligned the wrong way; Lcm(0,0) divides by zero; 0.446 is rounded to 0.5; large divisors lose the remainder; a sign in ParseDecimalFraction counts as a digit; from 20 digits on a false overflow is reported; touching ranges contain a common point but do not intersect; a negative field of an IntegerBuilder overwrites the other fields.)", "quantifier": "every value, boundary, divisor, radix, precision, range, bit index and field list", "why_tests_cant": "All 64-bit values; wrap-around and rounding boundaries", "anchors": ["stingraykit/math.h: AlignUp, AlignDown, Gcd, Lcm, IsPowerOfNumber", "stingraykit/math.cpp: RoundFraction, CalculateFractionRemainder, ParseDecimalFraction", "stingraykit/NumericRange.h", "stingraykit/BitwiseOperations.h", "stingraykit/IntegerBuilder.h"]}
{"id": "C62", "title": "ranges and range adapters show exactly the list they should", "statement": "For every sequence: a range over it, Single, Transform, Reverse, Filter, Drop, Take, Split, Flatten, Zip and Concat (and any nesting of them) show the sequence itself, its images, its reverse, its accepted elements, its tail, its prefix, its fragments, the concatenation of its inner sequences, the pairs up to the shorter end and the concatenation; stepping forwards and backwards, First, Last, equality and, where offered, position/size/Move agree with positions in that list; Transform, Drop and Take keep random access and refuse steps out of the list; Cycle never ends and shows position modulo size; a range-based for visits exactly the elements in order; Count, Contains, IndexOf, ElementAt, AnyOf/AllOf/NoneOf, Min/MaxElement and Fold are those of the list from the current position on. (Refuted: Split::Last() on a full last fragment is invalid; Move to or from the end of a reversed range, and the position of an empty reversed range (2^64-1); Next at the end of a reversed range does not throw; Filter::Prev at the first element leaves a rejected element current; Flatten/Concat Prev at the first element silently ends the range; a range-based for over Flatten of only empty collections throws; a failed Next of Zip desynchronises the ranges; a range-based for over Cycle runs no body.)", "quantifier": "every element type, sequence, predicate, functor, count, nesting of adapters, position and sequence of steps", "why_tests_cant": "All sequences and all compositions of adapters", "anchors": ["stingraykit/collection/Range.h: IteratorRange, RangeFilter, RangeReverser, RangeTransformer, RangeDropper, RangeTaker, RangeCycler, RangeSplitter, RangeFlattener, RangeZipper, RangeConcater, RangeSingle", "stingraykit/collection/RangeBase.h: begin, end"]}
{"id": "C63", "title": "PPM: statistics, dictionary and compressor/decompressor round trip", "statement": "For every list of level configurations with descending context sizes ending in an order-0 level, every training text of bytes and every sequence of contexts given up by compaction: each level has counted exactly how often each symbol followed each context where this was the first usable level; compaction neither loses nor duplicates counts and moves a context's counts to the shorter context of the next level; the memory counters are exact; a context that was seen is predicted with its own statistics; after any non-empty training every byte string can be compressed; if the training fits the probability types (n + 255 <= 2^bits of every level, n + 256 <= 2^29) different messages are encoded differently and from the coder's output, completed by any bits that denote its final interval, the decompressor reads back exactly the message and the end mark. (Refuted: with more training the sum of probabilities before a symbol wraps in the Probability type and different messages get the same code, e.g. u8 trained on \"aa\", or an order-1 u8 level; a dictionary trained on nothing compresses no byte; an unseen context uses another context's statistics; what the compressor finally writes with EndOfData does not decode, whatever bits follow, e.g. for the one byte 3 with the dictionary of \"a\" (see C23).)", "quantifier": "every list of configurations, training text, compaction history, message and continuation of the bit stream", "why_tests_cant": "All texts, all dictionaries and all messages; the failing sizes depend on sums of counts", "anchors": ["stingraykit/compression/ppm/PpmModel.h: ModelBuilder, ContextInfoBuilder, Compactificator, Model::Predict, Model::Decode", "stingraykit/compression/ppm/PpmCompressor.h: Encode, DoEndOfData", "stingraykit/compression/ppm/PpmDecompressor.h: Decode", "stingraykit/compression/ppm/PpmDictionaryBuilder.h: AddSymbol, UpdateContext, Finish"]}
{"id": "C64", "title": "Serialization: what an ObjectOStream is told to write, an ObjectIStream reads back", "statement": "For every type built from booleans, integers, strings, byte vectors, optional, vector, set, map, pair, variant, classes with Serialize/Deserialize, Composites and pointers to them (an optional holding no optional or pointer, EmptyType only as a variant alternative, distinct property names) and every value of it: the calls on the output stream nest properly and give every property exactly one value; different values give different documents; reading the document gives the value back whatever the object held before, provided optional members of Composites were unset; optional properties that are unset write nothing. Checked integers accept exactly the representable numbers; 'hex=' text gives the bytes and odd or non-hex text is refused; injected trees are written unchanged; an object is read as a string map. (Refuted: an optional of an empty optional or null pointer comes back empty; a Composite keeps the stale value of an optional member that the document lacks; plain integers out of range wrap silently; doubles keep six digits; a pair of one element and a variant with an unknown index are accepted; a pair with an EmptyType does not come back.)", "quantifier": "every type of the universe, value, previous object, default constructor leaving optionals unset, and ordering of the keys", "why_tests_cant": "All types and values; which combinations fail only shows in nested types and in reused objects", "anchors": ["stingraykit/serialization/Serialization.h: ObjectOStream::Serialize, ObjectIStream::Deserialize", "stingraykit/serialization/Serialization.cpp: Get, UnpackBinaryEncoding, for_each", "stingraykit/serialization/Serializer.h: OptionalDeserializationHelper", "stingraykit/serialization/Composite.h: STINGRAYKIT_DECLARE_COMPOSITE", "stingraykit/serialization/IntegerDeserializer.h: CheckedIntegerCaster", "stingraykit/serialization/InjectionSerializer.h: Visitor", "stingraykit/serialization/FloatString.cpp: FloatString"]}
{"id": "C65", "title": "Lifetimes of the contents of variant, optional and any", "statement": "After any history of constructions, copies, moves, assignments, emplacements, resets, swaps and destructions of variants, optionals and anys - with exceptions thrown by the items' own constructors and assignments wherever they may be - every container contains exactly what the sequence of operations says, every item that was constructed is destroyed exactly once and at the right type, nothing is alive in a container that is gone, and no object is used outside its lifetime. A variant whose new item's constructor throws a std::exception becomes empty if it has EmptyType among its types and terminates the program otherwise; an optional keeps its old value if an assignment throws and is empty if an emplacement throws. Self assignment (v = v, a = a) is part of the claim.", "quantifier": "all sequences of operations of any length over any number of containers, all item values, all throw points and exception kinds", "why_tests_cant": "tests construct a handful of containers and assign a few values; a double destruction, a missed destructor or a read of a dead object in some interleaving of throwing operations is invisible to them unless that very history is run under a sanitizer", "anchors": ["stingraykit/variant.h:variant", "stingraykit/optional.h:optional", "stingraykit/any.h:any", "stingraykit/any.cpp:any::Copy, any::Move, any::Destroy", "stingraykit/aligned_storage.h:StorageFor"]}
{"id": "C66", "title": "Decimals and fixed point numbers compute what they say", "statement": "A Decimal with mantissa m and exponent e stands for m / 10^e and a fixed_point<N> with raw value r for r / 2^N. Comparing, adding, subtracting, negating and multiplying Decimals gives the exact result; == is an equivalence and < a total order that respects it; ToString writes the shortest decimal notation of the number, FromString reads every decimal notation exactly, and reading what was written gives an equal Decimal. Fixed point sums and comparisons are exact, products and conversions to fewer bits round down to the step 2^-N, quotients are off by less than the step, sqrt is the root rounded down, to_int the floor, FromString rounds down and ToString writes three digits.", "quantifier": "all mantissas, exponents, digit strings, raw values, N and widths", "why_tests_cant": "tests compare a few small decimals; the values whose mantissa leaves the 53 bits of a double when brought to a common exponent, the negative numbers with zeros after the point, and the fixed point numbers with a small fraction are in nobody's table", "anchors": ["stingraykit/Decimal.h:Decimal", "stingraykit/Decimal.cpp:FromString, ToString, operator ==, operator <, operator +=, operator *=", "stingraykit/fixed_point.h:fixed_point"]}
{"id": "C67", "title": "Format strings and versions: what is formatted is the format with the arguments put in, and parsing takes it apart again", "statement": "StringFormat replaces every %n% by the text of argument n and every %n$w% by that text padded with zeros to width w, %% by %, copies the rest, and throws for every other format and for an argument that does not exist. StringParse returns true exactly for the strings that are the format with nonempty texts in place of %n% and %_%, each ending where the following text of the format is first seen, if every argument accepts its text, and then the arguments have these values; it reads back what StringFormat wrote when no argument contains the first character of the text after it. Version::FromString reads back what ToString wrote and accepts only two or three numbers with points between them; the operators of Version are the lexicographic order in which a missing build comes first.", "quantifier": "all formats, strings, argument texts, readers and versions", "why_tests_cant": "formats and inputs are arbitrary strings: tests show a few that match and a few that do not, not that nothing else is accepted", "anchors": ["stingraykit/string/StringFormat.h:StringFormat", "stingraykit/string/StringParse.h:StringParse", "stingraykit/Version.h:Version", "stingraykit/Version.cpp:Version::operator <, ToString, FromString"]}
{"id": "C68", "title": "Comparers built from comparers are good orders, and every form of a comparison agrees", "statement": "comparers::Cmp/Less/Equals/Greater on objects and on shared_ptrs of any depth, the CmpTo*/LessTo* adapters, TupleCmp, CollectionCmp, CompareMembersCmp, Comparable, optional (members, operators against optionals, values and null, OptionalCmp), variant operators, the operator-generating macros and the case-insensitive string comparers all yield a proper order (sign-antisymmetric and transitive three-way, strict weak less, equivalence) whenever the comparisons they are built from do; the result is the one documented (null first, lexicographic with the shorter first, first differing member decides, alternative before contents), and less, greater, equals and three-way forms never contradict each other. One exception: OptionalCmp with the plain value on the left negates the item result, which overflows if an item comparison returns INT_MIN.", "quantifier": "all values, pointer depths, tuple lengths and element types, collections, member lists, class hierarchies with any number of dynamic types, and all item comparisons that are themselves orders", "why_tests_cant": "transitivity and agreement quantify over all triples of values of all user types and all nestings; tests try a handful of pairs", "anchors": ["stingraykit/compare/comparers.h: Cmp, Less, Equals, Greater, CmpToLess, LessToCmp, TupleCmp, TupleEquals", "stingraykit/compare/CollectionComparer.h: CollectionComparer", "stingraykit/compare/MemberListComparer.h: MemberListComparer", "stingraykit/compare/Comparable.h: Comparable", "stingraykit/optional.h: Compare, operator <, OptionalCmp", "stingraykit/variant.h: operator ==, operator <", "stingraykit/toolkit.h: STINGRAYKIT_GENERATE_*", "stingraykit/string/Comparers.h: CaseInsensitiveLess, CaseInsensitiveEquals"]}
{"id": "C69", "title": "Waiting on a condition variable with a cancellation token: no lost cancellation, no dangling handler, the mutex held again on return", "statement": "ConditionVariable::Wait(mutex, token), whatever other threads lock, broadcast and cancel, and when: only one thread at a time runs code under the mutex, and Wait returns holding it; the cancellation handler it puts on its own stack is called only while that very call is in progress, and no token keeps it after the return; a thread asleep on a CancellationToken whose Cancel has been called will be woken (a finished Cancel never leaves it asleep), and a wait whose token is cancelled, or that is awake, can always go on to return, once, without any new operation; the result Cancelled needs a cancelled or expired token, TimedOut needs a timed one, and Broadcasted is never reported by a call whose handler ran. Not true: a JoiningCancellationToken one member of which was cancelled before the wait does not wake the waiter (it counts as registered because the other member is); an expired TimedCancellationToken makes Wait return Cancelled, not TimedOut, with nobody having cancelled. BasicConditionVariable: Broadcast leaves a permit for everyone inside Wait, but a later waiter may take it, and a timed-out wait leaves a surplus permit.", "quantifier": "all numbers of threads and tokens, all joined tokens (any tree, as its list of members), timed or not, all schedules including spurious wake-ups, timeouts at any moment and Cancel called with or without the mutex held", "why_tests_cant": "the windows between registration, sleep, wake-up, unregistration and the canceller's use of a handler on another thread's stack open only in particular interleavings", "anchors": ["stingraykit/thread/posix/PosixConditionVariable.cpp: CancellationHolder, Wait, Broadcast", "stingraykit/thread/CancellationRegistrator.h: CancellationRegistratorBase", "stingraykit/thread/CancellationToken.cpp: Cancel, TryRegisterCancellationHandler, TryUnregisterCancellationHandler, UnregisterCancellationHandler", "stingraykit/thread/JoiningCancellationToken.cpp", "stingraykit/thread/TimedCancellationToken.h", "stingraykit/thread/BasicConditionVariable.h"]}
{"id": "C70", "title": "Reference counting collections call their functors exactly at the first and the last reference; bimap keeps two views of one relation", "statement": "RefCountingMap and RefCountingSet: after any sequence of add, erase (by key or iterator) and clear, count(key) is the number of references added and not erased, the key is found exactly while that is not zero, with the key and value of the add that began it, iteration shows the held keys in order, and for every key doAdd and doRemove are called in turn, doRemove with what doAdd returned, never twice in a row. RefCountingValue and RefCounter: the same for a single value, even if functors throw. An add whose functor throws changes nothing. bimap over two std::maps: inserting a pair with both halves new, and erasing from either side, keep the two sides the same relation. Not true: after an erase whose functor threw the entry stays with no references, its count then wraps to 2^64-1 and it is never removed; a clear or RefCounter::reset whose functor throws repeats calls already made; RefCountingValue::get() keeps a value though count() is zero; bimap with one half of the inserted pair already there, or over a multimap, has sides that disagree.", "quantifier": "all key and value types, all strict weak orders, all histories shorter than 2^64 operations, all points at which a functor may throw", "why_tests_cant": "exactly-once needs every interleaving of adds and erases over all keys of an equivalence class; throwing functors at the worst moment are not tried", "anchors": ["stingraykit/collection/RefCountingMap.h: RefCountingMap", "stingraykit/collection/RefCountingSet.h: RefCountingSet", "stingraykit/collection/RefCountingValue.h: RefCountingValue", "stingraykit/collection/RefCounter.h: RefCounter", "stingraykit/collection/bimap.h: bimap"]}
{"id": "C71", "title": "Singletons are built at most once, handed out only alive, and destroyed once, in a safe order", "statement": "SafeSingleton, any number of threads: T is constructed at most once (and never again after a std::exception); Instance() returns pointers to that one object, which is alive as long as any of them is; it is destroyed exactly once, after the static holder and when no pointer is left; nobody gets it afterwards; null means that the constructor threw or the process is exiting; nobody waits for ever. PhoenixSingleton: living instances never overlap, each is destroyed by one exit handler, none is left when the handlers are run, the assert holds, a reference returned before the exit is alive. Singleton: whatever singletons their constructors use (without a cycle), each is built at most once, answers truthfully, and is destroyed exactly once, before everything its constructor used. AtomicInt::Store, a compare-and-swap loop, changes the cell exactly once. Not true: a PhoenixSingleton reference may be dead on return during exit; calling IsAlive() before Instance() reverses the destruction order; cyclic constructors wait for themselves; AssertInstanceCreated() accepts a singleton whose construction failed.", "quantifier": "all numbers of threads, all schedules, all moments of exit, all constructor outcomes, all acyclic dependency graphs and call sequences, all interference with the store loop", "why_tests_cant": "races between Instance(), pointer destruction and process exit cannot be enumerated; destruction order depends on the whole call history", "anchors": ["stingraykit/SafeSingleton.h: SafeSingleton::Instance, TryAddReference, RemoveReference", "stingraykit/PhoenixSingleton.h: PhoenixSingleton::Instance, do_atexit", "stingraykit/Singleton.h: Singleton::Instance, IsAlive, AssertInstanceCreated", "stingraykit/thread/posix/PosixCallOnce.cpp: CallOnce", "stingraykit/thread/atomic/Spinlock.h: Spinlock", "stingraykit/thread/atomic/AtomicInt.h: Store"]}
{"id": "C72", "title": "Text is converted between encodings without changing its characters, and compared by them", "statement": "For every text that is the standard encoding of some characters in ISO 8859-1..16, CP1251, UTF-8, UTF-16 (BMP), UTF-32 or marked ISO 10646: ToUtf8 gives exactly their UTF-8, Compare orders by the characters whatever the two encodings, ToCodePage(866) gives the byte of each character or '?'. For any bytes: a decoder consumes 1 to 4 bytes inside the text, reads its tables in bounds and gives at most 21 bits or 'invalid'; a one-byte text becomes valid UTF-8 with one character per byte; operator < is a strict weak order and Compare does not overflow; encodings without decoder are refused; FromUtf8/ToUtf8 is the identity; code page 866 survives FromCodePage/ToCodePage but for box drawing. Not true: UTF-16 surrogate pairs come out 0x10000 too low; == is not 'Compare gives 0' and not transitive; malformed UTF-8 is accepted; UTF-32 surrogates give invalid UTF-8; unassigned bytes of 8859-7, -8, -11 and CP1251 are not replaced; CP1251 does not survive ToCodePage; a marked UTF-16LE text that begins with U+0000 is taken for UTF-32LE.", "quantifier": "all texts, all encodings, all byte strings, all replacement characters and code pages", "why_tests_cant": "the space of texts and pairs of encodings is infinite; order laws and round trips are statements about all of them", "anchors": ["stingraykit/locale/StringCodec.cpp: StringCodec::ToUtf8, FromUtf8, Compare, ToCodePage, FromCodePage, GetEncoding, PackUtf8, Unpack_*", "stingraykit/locale/LocaleString.cpp: operator <, operator ==", "stingraykit/locale/Encoding.h: Encoding"]}
{"id": "C73", "title": "Enumerator adapters behave as cursors over the expected sequence, and the Enumerable functions as the list functions", "statement": "For every source and every sequence of Valid/Get/Next calls: a container's enumerator, Join, Cast, OfType, Where, Transform, Skip, Take, Flatten, one-item and empty enumerators answer exactly as a cursor over the expected list, and throw past its end; a walk gives that list. Aggregate, All, Any, Count, Contains, ForEach, IndexOf, ElementAt, First, Last, Single, SequenceEqual, Clone, Reverse give the list functions' results and leave the source at a stated place (Take leaves it behind its items). Diff leads from one sequence to the other and for ascending ones is exactly the two set differences, in order. ToRange keeps its position through First, Next, Last and copies. FOR_EACH and range-for run the body on the selected items in order; break stops at once and leaves the enumerator behind the item. Not true: FuncEnumerator's Next past the end does not throw; SequenceEqual of an enumerator with itself throws for odd lengths; DefaultIfEmpty is decided when called; what EnumerableBuilder::Get gave dangles after Add; Diff of unsorted sequences reports common items.", "quantifier": "all item types, sources, functors (casters may throw), comparers, call sequences, counts and loop bodies", "why_tests_cant": "the sources, functors and call sequences are unbounded; equality with a cursor is a statement about all of them", "anchors": ["stingraykit/collection/EnumerableHelpers.h: namespace Enumerable, JoiningEnumerator, EnumeratorCaster, EnumeratorOfType, EnumeratorTransformer, EnumeratorTaker, EnumeratorFlattener, EnumeratorDiff, EnumerableToRange", "stingraykit/collection/EnumerableWrapper.h: EnumeratorWrapper", "stingraykit/collection/EnumerableFromStlContainer.h: IteratorsRangeEnumerator", "stingraykit/collection/FuncEnumerator.h: FuncEnumerator", "stingraykit/collection/EnumerableBuilder.h: EnumerableBuilder", "stingraykit/collection/StlEnumeratorAdapter.h", "stingraykit/collection/ForEach.h: FOR_EACH"]}
{"id": "C74", "title": "Counting pointers destroy each object exactly once, when its last pointer goes, under every interleaving", "statement": "For every program over self_count_ptr variables and members (make, copy, move, reset, swap, from_this, loads and stores of members, handing over to another thread) and every interleaving of the threads' atomic steps: no object whose destructor has begun is touched; an object is deleted at most once, never while a pointer to it exists, and is gone when no operation is under way and no pointer to it exists; use_count is the number of pointers; unique() seen by an owner stays true whatever the others do; every begun operation ends; without cycles exactly the objects reachable from variables are alive. Not true: reset(get()) is harmless; cycles are collected.", "quantifier": "all thread counts, variables, object graphs, programs and interleavings", "why_tests_cant": "the interleavings and histories are unbounded; a use after free shows up only in some of them", "anchors": ["stingraykit/self_counter.h: self_count_ptr, self_counter, make_self_count_ptr"]}
{"id": "C75", "title": "Scope guards (unique_ptr, holders, ScopeExitInvoker, ActionTransaction, MultiToken) clean up exactly once", "statement": "For every sequence of calls, with callbacks that may throw at any call: every handle a ScopedHolder or SharedHolder took over is either handed back by Release or cleaned up successfully, exactly once and in order, only the destructor's own cleanup may fail for good; Get gives the last handle set. A ScopeExitInvoker calls its function once unless cancelled. A transaction with undoable actions leaves the world as it was unless committed; rollbacks run last first, each once, none after a commit; after Commit or Rollback every call throws. Every function of a MultiToken runs once, in the builder's order, and a used builder refuses every use. unique_ptr never deletes twice, has one owner per object and leaks nothing, with destructors that use other pointers; self-move is harmless. Not true: a failed cleanup or rollback is not repeated, every rollback is tried, Set takes its handle over when it throws, reset(get()) or a destructor resetting its own pointer is harmless.", "quantifier": "all handles, callbacks and their throwing patterns, worlds, call sequences, token trees, ownership histories", "why_tests_cant": "call histories and throwing patterns are unbounded, and the exactly-once statements speak about all of them", "anchors": ["stingraykit/Holder.h: ScopedHolder, SharedHolder", "stingraykit/ScopeExit.h: ScopeExitInvoker", "stingraykit/ActionTransaction.cpp: ActionTransaction", "stingraykit/MultiToken.h: MultiTokenBuilderBase", "stingraykit/FunctionToken.h: FunctionToken", "stingraykit/unique_ptr.h: unique_ptr"]}
{"id": "C76", "title": "Token pools, maps and holders destroy each token once, outside their mutex, and never deadlock", "statement": "For any number of TokenPools, TokenMaps and TokenHolders, any threads, any interleaving, and tokens whose functions themselves use these objects: every token put in is held, being dropped by one thread, or its function has been called, exactly one of these; no function is called twice, and none while its thread holds a pool's mutex; while any thread has something to do some thread can go on; every run ends; Release(key) and ReleaseAll take out exactly their tokens and when they return the functions of all of these have been called. Not true: after Release returned no function of a token of the pool is still to run (another thread's Release may have taken it).", "quantifier": "all objects, programs, nested cleanup functions, threads and interleavings", "why_tests_cant": "the interleavings and re-entrant cleanups are unbounded; a deadlock or a double call shows up only in some of them", "anchors": ["stingraykit/Token.h: TokenPool, TokenMap, TokenHolder", "stingraykit/FunctionToken.h: FunctionToken"]}
{"id": "C77", "title": "Observers of an ObservableValue know its value", "statement": "For every value type, comparer, population policy and history of Set, Get, connect and disconnect by any threads, with slots that may themselves call Set, Get, connect and disconnect to any depth and throw: Get returns the value the Sets before it left (a Set of an equal value changes nothing); a slot is called only while its connection exists or once before connect returns; what an observer was told last is the value now, and one that was never told anything sees the value it had at connect (and then either did not ask for it, or the policy had nothing to say); with slots that do not call Set nobody is told a value equal to the one it was told before; one Set tells each observer once, in connection order. Not true: for values passed by value (built-in types) a slot that calls Set leaves later observers with the old value; a slot that calls Set while being populated misses that change.", "quantifier": "all value types, comparers, policies, histories, and all terminating slot programs with nested calls", "why_tests_cant": "the slots' nested calls are unbounded; the stale observer appears only for one order of connections and one kind of type", "anchors": ["stingraykit/ObservableValue.h: ObservableValue, ObservableValuePolicies", "stingraykit/IObservableValue.h: IObservableValue", "stingraykit/signal/signals.h: SignalImplBase, SignalImpl::InvokeAll", "stingraykit/metaprogramming/ParamPassingType.h: GetParamPassingType"]}
{"id": "C78", "title": "Key sets and casters of collections show exactly the wrapped collection and tell its changes", "statement": "For every key type with a strict total order, every value type and every history: the key set of a transactional dictionary turns each committed diff, without an exception, into the exact diff of the key sets (new keys added, vanished keys removed, each once and in order, nothing for keys whose value changed), and calls its observers exactly if the set of keys changed; the key set of an observable dictionary tells exactly the changes of the set of keys; cast dictionaries and lists (any caster) and sets (injective caster) tell exactly the changes of what they show; cast transactional dictionaries' diffs replay to the cast content; Contains, Find, IndexOf, Get and GetCount of a caster agree with its enumerator whenever casting back undoes casting, which the default shared_ptr casts do for items that are not null. Not true: a null item is enumerated but not found; with a non-injective caster the observers of a cast set lose items.", "quantifier": "all key/value types, orders, contents, diffs, event streams, casters", "why_tests_cant": "the interplay of removed/added pairs over all diffs of all histories cannot be enumerated", "anchors": ["stingraykit/collection/DictionaryKeysSet.h: DictionaryKeysSet, ObservableDictionaryKeysSet, TransactionalDictionaryKeysSet", "stingraykit/collection/DictionaryCaster.h: DictionaryCaster", "stingraykit/collection/SetCaster.h: SetCaster", "stingraykit/collection/ListCaster.h: ListCaster"]}
{"id": "C79", "title": "A DataJoiner is the concatenation of its containers", "statement": "For every non-empty tuple of containers, any of them empty: begin() never throws; an iterator got from begin() or end() by moves stands at one position of the concatenation, and shows the element there; a move to a position from 0 to the size succeeds and every other throws and leaves the iterator as it was; two iterators at the same position are the same; ==, !=, <, >, <=, >=, - and [] are those of the positions; a loop from begin() to end() reads the concatenation, and size() is its length; ApplyToIntervals(from, to) with from not after to shows the visitor exactly the elements between them, in order, in non-empty parts of single containers. Not true: with from after to inside of one container, the visitor is called with a range whose ends are swapped.", "quantifier": "all tuples of containers, all iterators obtainable by moves, all distances a difference_type holds", "why_tests_cant": "the placement of empty containers and the distances are unbounded", "anchors": ["stingraykit/collection/DataJoiner.h: DataJoiner, DataJoinerIterator", "stingraykit/collection/iterator_base.h: iterator_base", "stingraykit/metaprogramming/ForIf.h: ForIf", "stingraykit/metaprogramming/For.h: For"]}
{"id": "C80", "title": "A value that shows one entry of a collection tells its observers that entry", "statement": "For every history of changes of the collection, the value of one dictionary key (GetDictionaryKeyValue) or set entry (GetSetEntry): after every change an observer that connected at any moment knows, by its last call, what the collection holds for the key (the value or null; true or false), which is also what Get returns; over an observable collection it is called exactly once for each change of that key and never for another; over a transactional dictionary a commit calls it exactly if the entry changed, with the new entry, also if the diff removes the old value and adds a new one; after Set(x), Get is x, no other key is changed, and the collection's observers are told exactly this change. Not true: GetSetEntry uses the comparer that is given (it makes its own); a comparer coarser than the collection's own equality keeps the observer right; a null stored in a dictionary of nullable values can be told from a missing key.", "quantifier": "all key and value types, all keys, all contents, all histories of changes, all diffs of a transactional dictionary, all values that are set", "why_tests_cant": "contents and histories are unbounded, and the observer may connect at any moment of them", "anchors": ["stingraykit/collection/ObservableDictionaryKeyValue.h: ReadonlyObservableDictionaryKeyValue, ObservableDictionaryKeyValue", "stingraykit/collection/TransactionalDictionaryKeyValue.h: ReadonlyTransactionalDictionaryKeyValue", "stingraykit/collection/ObservableSetEntry.h: ReadonlyObservableSetEntry, ObservableSetEntry, GetSetEntry"]}
{"id": "C81", "title": "Values from signals, and futures for signals and calls", "statement": "GetValueFromSignal, GetTupleFromSignal: the first value the signal's current state shows, null if it shows none or the connector is a dummy; every further value, and an exception of the populator, goes to the signal's exception handler, and is an error of the caller exactly if that throws. GetValuesFromSignal: all values in order; of a collection's signal, the elements that are Added, and the handler is told of each other. A future of an AsyncFunction: whatever the executor does with the task (copies it, drops it, calls it at any time, more than once, in several threads), the future holds what the first call that ended with a value or a std::exception ended with, for good; without one it is empty while the task exists and broken once its last copy is gone; the caller always gets its future. SignalToFutureWrapper: in every schedule the future holds the first value that reached the slot and is broken exactly if there was none before the destruction; no value is lost, the promise is not used after its destruction, GetFuture never throws. Not true: a second value is an error for the caller (the default handler only logs); every exception of the function reaches the future (one that is not a std::exception leaves it broken); a null value of a nullable type can be told from no value.", "quantifier": "all populators, handlers, value types; all schedules of an executor with any number of copies and calls of the task; all schedules of emissions, connecting and destruction", "why_tests_cant": "the number of calls, copies and emissions and their interleaving are unbounded", "anchors": ["stingraykit/signal/ValueFromSignalObtainer.h: ValuesFromSignalCollector, TupleFromSignalObtainer, ValueFromSignalObtainer, GetValueFromSignal, GetValuesFromSignal, HasValueInSignal", "stingraykit/signal/SignalToFuture.h: SignalToFutureWrapper", "stingraykit/function/AsyncFunction.h: AsyncFunction, FuncWrapper", "stingraykit/signal/signals.h: ExceptionHandlerWrapper, DoSendCurrentState", "stingraykit/signal/signal_connector.h: SendCurrentState", "stingraykit/future.h: promise"]}
{"id": "C82", "title": "The watchdog of sessions (AsyncProfiler)", "statement": "A session is reported only if it was found overdue while it was running, at least the timeout (30 s) after its construction, with its right running time, and not again before another timeout has passed; the log has one line for each finding, in order, at most the last one missing. However sessions start and end, the thread sleeps without limit only if none is running and otherwise until the first one is due (plus what passed between its two readings of the clock); a running session that is due is reported by at most 2n+1 steps of the thread, n the sessions started so far, without time passing, if no name function throws; with no session left the profiler's destructor waits for at most two steps of the thread, however long it would have slept. Not true: an overdue session is reported if another one's name function throws (the thread ends and nothing is ever reported again); a session in the log is still running (the line is written after the mutex was released).", "quantifier": "all schedules of any number of sessions starting and ending, all readings of a monotone clock, spurious wake-ups, any timeout > 0", "why_tests_cant": "lost wake-ups, the order of the list and the absence of late reports depend on every interleaving of any number of sessions with the thread", "anchors": ["stingraykit/diagnostics/AsyncProfiler.h: AsyncProfiler, Session, SessionImpl", "stingraykit/diagnostics/AsyncProfiler.cpp: ThreadFunc, AddSession, RemoveSession"]}
{"id": "C83", "title": "The life of a thread", "statement": "The function of a thread is run at most once, and it has been run and has ended exactly once when the thread's destructor has returned, however early the destructor was called. After the destructor has returned the thread does not run, does not use the destroyed object and is sent no signal, whoever was asking for its backtrace. The constructor returns after at most three steps, with the thread registered under its kernel id; the destructor returns once the function has ended (after at most guards + 3 steps) unless the thread destroys itself. The program is aborted only by an exception that is not a std::exception or by self-destruction. Processor times of threads that have exited are counted once, at the nearest ancestor that has not exited, if every thread exits after those it has made. Not true: GetPthreadIdFromThreadId gives the running thread with that id (kernel ids are reused while the ended thread's object exists); a thread can destroy itself; the function begins only after the constructor has returned; RequestBacktrace never signals a thread that is gone (threads not made by the library have no guard); times are always counted somewhere.", "quantifier": "all schedules of any number of threads making, destroying and ending one another, any requests for backtraces, any reuse of kernel ids by the kernel, any processor times", "why_tests_cant": "use after destruction and use of a joined handle depend on every interleaving of destructor, thread and backtrace requests", "anchors": ["stingraykit/thread/posix/PosixThreadEngine.cpp: PosixThread, ThreadDataStorage, ThreadsRegistry, PosixThreadInfo, ThreadStatsCalculator, GetPthreadIdFromThreadId"]}
{"id": "C84", "title": "Mappers between enumerations", "statement": "Map gives the value of the first pair whose source side stands for the argument, else that of the default, and throws exactly if that is Fail; HasMapping is true exactly if Map does not throw; Unmap and HasBackMapping likewise from the other side. A mapper compiles in a direction exactly if every Range on that side is not empty, the values of every BiValue differ and none is Fail. If no value is stood for by two pairs and every pair gives a value it stands for, a value of the table goes to one that comes back to a value of the same pair and goes to the same one again; a single value comes back to itself. Not true of every mapper that compiles: Map(Unmap(Map(x))) = Map(x) (pairs may overlap; the value a Range is mapped back to need not be in the Range).", "quantifier": "all mappers with any number of pairs of any kinds, all values", "why_tests_cant": "a mapper is a table written by the user; the rule must hold for every table and every value", "anchors": ["stingraykit/Mapper.h: BaseValueMapper, Mapper, Mappings", "stingraykit/metaprogramming/ForIf.h: ForIf"]}
{"id": "C85", "title": "Rectangles, percents, progress of parts and means", "statement": "A rectangle is valid if it has a point; the points of Intersect are the points common to both, whatever the rectangles, and it is commutative, associative, idempotent and moves along; Intersects says whether valid rectangles with their sides share a point; < is a strict total order with == equality. InPercents of a part is its percentage rounded down, 100 only for the whole, monotone. A part index..index+size-1 of count actions reports, of 100, values between those of its first action and of the end of its last, not decreasing, and consecutive parts join without a gap from 0 to 100. Average is the truncated mean, within the values; the integer Mean stays within the values and Deviation is not negative; without rounding they are the mean and the variance. Not true: Intersects implies a valid intersection (side by side); an empty rectangle intersects nothing; the width of a valid rectangle fits int; two progress values are equal or one is less; AggregateProgressReporter accepts only parts within the actions (the sum wraps) and all of them (an empty first part throws); what it reports is at most 100 (negative progress wraps); the integer Mean is the mean up to any fixed error (it can stick at 0 for ever).", "quantifier": "all coordinates, all progress values, all parts of any number of actions below 2^64/100, all sequences of values of any length", "why_tests_cant": "the claims are arithmetic over all values; the errors of the integer mean grow without bound only over long inputs", "anchors": ["stingraykit/Rect.h: BasicRect", "stingraykit/ProgressValue.h: ProgressValue", "stingraykit/AggregateProgressReporter.h: AggregateProgressReporter", "stingraykit/Average.h: Average", "stingraykit/Accumulators.h: Accumulators"]}
{"id": "C86", "title": "The names of enumerations", "statement": "The values listed for an enumeration are those of the C++ enumeration if initializers use only enumerators that have initializers. Whatever white space and initializers without commas its definition contains, each distinct name is read as its value, and names joined with | and white space as the union of their bits. ToString gives the first name with the value; else, exactly if the value is a union of values of the enumeration, names joined with | whose union it is; else the unsigned number. FromString(ToString(v)) = v for every int v, except 0 if no enumerator is 0. Not true: the listed values are always those of the compiler (C = A and C = B + 5 are wrong when A or B has no initializer); 0 is read back; a text that is read consists of names, | and white space (the character after white space between names is lost: \"A ?B\" is A|B); names are right when an initializer contains a comma.", "quantifier": "all enumerations of any number of enumerators and any names and initializers with + and -, all texts of their definitions, all ints, all joined texts", "why_tests_cant": "the decomposition into flags and the parsing must be right for every set of values, including composite and negative ones, and every text", "anchors": ["stingraykit/EnumToString.cpp: EnumToStringMapBase::Impl", "stingraykit/EnumToString.h: EnumValueHolder, EnumToStringMapBase", "stingraykit/toolkit.h: STINGRAYKIT_ENUM_VALUES"]}
{"id": "C87", "title": "Logging: repeated messages, settings of named loggers, sinks", "statement": "Where duplicates are hidden by count n, of a run of equal messages at one place the first is printed, then for each n + 1 repetitions one summary of n, and the remaining are summed up when the next message comes; other places and statements below the level do not disturb this. In either mode a message different from the previous one of its place is printed at once, summaries never count more than was logged, and by interval d the lines of a run are at least d apart. A living named logger has the backtrace and highlight switches last set for its name; its level is that set for its name since its creation, else the one set before if any setting of the name was in force then, else its constructor's. A message goes to each sink present when it was logged, in order, whichever of them throw, and to the system log if there is none, in any interleaving. Not true: every message is printed or counted (the repetition causing a summary is in none); a message repeated by less than the interval's frequency is ever mentioned again; the constructor's level is kept while no level is set for the name; all loggers of a name have one level after SetLogLevel; a sink gets nothing after its token is destroyed.", "quantifier": "all programs of log statements with any messages, places, levels and times, all histories of creations and settings, all interleavings of logging with sinks added and removed", "why_tests_cant": "what is printed depends on the whole history of a place, settings on the order of all changes and creations, deliveries on the schedule", "anchors": ["stingraykit/log/LoggerStream.cpp: LoggerStream::DoLog", "stingraykit/log/LoggerStream.h: DuplicatingLogsFilter, HideDuplicatingLogs, operator<<", "stingraykit/log/Logger.cpp: NamedLoggerRegistry, LoggerImpl, NamedLogger"]}
{"id": "C88", "title": "Areas of thread operations, the object pool, reading lines, sequence numbers", "statement": "As long as areas of a kind in a thread end innermost first and in their thread, an operation is reported in constrained areas, and accepted in exclusive ones, exactly if it is among the operations of some open area of that thread, whatever other threads do; the end of an area in a foreign thread is fatal and changes nothing. CollectGarbage destroys no object referenced from outside the pool or by one that stays; as many collections as objects leave only such objects if none was added twice. Reading lines gives the unique division of the text into lines ended by LF, CR LF or CR, and the end of the text is reached exactly with the last one. The i-th sequence number is the start plus i, and none is repeated among the first 2^w. Not true: nothing is restricted after all areas have ended in whatever order; one collection is enough; an object added twice is ever collected; the lines tell whether the text ended with a line end.", "quantifier": "all interleavings of threads and histories of areas, all pools and reference graphs, all texts, all numbers of calls", "why_tests_cant": "masks are restored from saved values, so the claim depends on the whole history; a collection depends on the graph; a text may mix line ends", "anchors": ["stingraykit/thread/ThreadOperation.cpp: ThreadOperationConstrainer, ThreadOperationReporter, ExclusiveThreadOperation, ExclusiveThreadOperationChecker", "stingraykit/ObjectPool.h: ObjectPool", "stingraykit/string/StringReader.h: StringReader", "stingraykit/IntegerSequenceGenerator.h: IntegerSequenceGenerator"]}
{"id": "C89", "title": "The command line: execution, completion and registration", "statement": "A command that consists of the words of a handler and its arguments - strings, booleans, values with FromString, optional ones and vectors of these to any depth, written with escapes and single spaces between the parts - calls the handler's function with these values; every list of nonempty strings can be passed. Handlers execute only texts that begin with their words. An input is completed exactly if it consists of some of the words and a beginning of the next; custom completion offers the rests of the candidates with the beginning typed, and these read back as the candidates unless they contain a backslash. After any history of registrations and releases the handlers present are those not released, in the order of registration; a text is given to the first one that accepts it and to no other. Not true: any strings can be passed (empty ones cannot); [ ] is an empty vector; optional vectors can be passed; a completed argument always reads as the candidate.", "quantifier": "all words, parameter types to any depth of vectors, values, texts, candidate lists and histories of registrations", "why_tests_cant": "arguments are arbitrary texts with escapes and nested vectors; the order of handlers depends on the whole history of registrations", "anchors": ["stingraykit/CmdLine.h: CmdArgReader, CmdHandler, CmdArgCompleter", "stingraykit/CmdLine.cpp: CmdLine"]}
{"id": "C90", "title": "Language codes, checkpoint profiles, bandwidth reports", "statement": "A language code is read exactly from texts of two or three characters; read from three nonzero bytes it is written as these with letters capitalized and read back from that; codes are equal exactly if the texts are up to case, and ordered as the capitalized texts. Two characters give Russian, English or any language. Numbers of three ASCII bytes give the code of that text; numbers of more than three bytes are refused. Stopping a profiler gives, after any history, the checkpoints since the last start, in order, each with the time since the one before, and nothing if it was not started; the times add up to the last checkpoint's. A bandwidth report gives all bytes and those since the report before modulo 2^64, and the speed if these are fewer than 2^64/1000. Not true: numbers of any bytes give the code of their text; every code is read back from its text (the one for any language is not) or from its two letters; the speed is right for any amount.", "quantifier": "all texts and numbers, all histories of the profiler with any clock readings, all histories of the reporter", "why_tests_cant": "the code of a text depends on every byte; a profile on the whole history since the start; totals wrap", "anchors": ["stingraykit/locale/LangCode.cpp: LangCode", "stingraykit/diagnostics/CheckpointProfiler.cpp: CheckpointProfiler", "stingraykit/BandwidthReporter.h: BandwidthReporter"]}
{"id": "C91", "title": "Data pipes", "statement": "The consumer of a data pipe gets, in order, what the last stage makes of the whole sequence that the stage before makes, and so on back to the inputs, whatever number of values the stages make of each, though every input goes through all stages before the next; a pipe split anywhere into two, the second fed with what the first makes, gives the same; what was handed on is not revised by later calls; and if the stages' Reset gives their initial states, a pipe after Reset behaves as a new one after any history.", "quantifier": "all numbers of stages, all stages as functions of state and input, all states, histories of calls and data", "why_tests_cant": "stages call each other recursively through continuations, so the order of outputs depends on all stages and inputs", "anchors": ["stingraykit/DataPipe.h: DataPipe, Detail::DataPipeStage"]}
