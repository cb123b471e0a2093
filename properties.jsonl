{"id": "C01", "title": "Work queue never hands out an item twice concurrently", "statement": "On a workqueue, once get() has returned item x, no get() by any task returns x again until done(x) has been called.", "quantifier": "every sequence of add/get/done/shut_down calls by any number of tasks, every item", "why_tests_cant": "A test exercises a handful of interleavings of producers and consumers; the claim is over every history.", "anchors": ["aiok8s/workqueue/queue.py:Type.get", "aiok8s/workqueue/queue.py:Type.add", "aiok8s/workqueue/queue.py:Type.done"]}
{"id": "C02", "title": "Work queue never loses an accepted add", "statement": "If add(x) returns while the queue is not shutting down and x is not handed out afterwards, then x is still owed: if x is not being processed it is returned within the next len(q) calls of get(); if it is being processed, calling done(x) makes it owed in that sense.", "quantifier": "every history, every later continuation, every item", "why_tests_cant": "Loss depends on where the add lands relative to get and done of the same item, in arbitrarily long histories.", "anchors": ["aiok8s/workqueue/queue.py:Type.add", "aiok8s/workqueue/queue.py:Type.done", "aiok8s/workqueue/queue.py:Type.get"]}
{"id": "C03", "title": "Work queue coalesces adds and invents nothing", "statement": "Every delivery of x by get() is preceded by an add(x) made after the previous delivery of x: so several adds between two deliveries collapse to at most one delivery and x is never delivered more often than it was added.", "quantifier": "every history, every item", "why_tests_cant": "Needs all placements of repeated adds around gets and dones.", "anchors": ["aiok8s/workqueue/queue.py:Type.add", "aiok8s/workqueue/queue.py:Type.get"]}
{"id": "C04", "title": "Work queue is first-in first-out in order of becoming ready", "statement": "If x is added while it is not being processed, and later a different item y that is neither waiting nor being processed is added, then x is handed out before y. An item re-added while being processed becomes ready when done() is called on it.", "quantifier": "every history, every pair of items", "why_tests_cant": "Fairness over all histories.", "anchors": ["aiok8s/workqueue/queue.py:Type.add", "aiok8s/workqueue/queue.py:Type.done", "aiok8s/workqueue/queue.py:Type.get"]}
{"id": "C05", "title": "Work queue shutdown drains and then terminates consumers", "statement": "After shut_down(): add() changes nothing, get() never blocks, every item still delivered had been added before the shutdown, get() reports shutdown exactly when nothing is ready, and repeated get/done by the consumers reaches the shutdown report after finitely many deliveries.", "quantifier": "every history before and after the shutdown", "why_tests_cant": "Needs all histories; a test only sees the happy path of one drain.", "anchors": ["aiok8s/workqueue/queue.py:Type.shut_down", "aiok8s/workqueue/queue.py:Type.get", "aiok8s/workqueue/queue.py:Type.add"]}
{"id": "C06", "title": "No lost wake-up for blocked consumers", "statement": "A task blocked in get() is only left sleeping, once the event loop has run every runnable task, when the queue is empty and not shutting down. (Holds when no consumer task is cancelled between being notified and running; with such a cancellation an item can sit in the queue while another consumer sleeps.)", "quantifier": "every interleaving of any number of getter tasks, adders, done and shut_down calls, and cancellations", "why_tests_cant": "Lost wake-ups need a precise schedule that a test run almost never produces.", "anchors": ["aiok8s/workqueue/queue.py:Type.get", "aiok8s/workqueue/queue.py:Type.add", "aiok8s/workqueue/queue.py:Type.shut_down"]}
{"id": "C07", "title": "len() counts exactly the ready items, done() of an item not being processed raises and changes nothing", "statement": "len(q) equals the number of distinct items that the next consecutive get() calls would return without any done(); done(x) raises KeyError exactly when x was not handed out since its last done(x), and then has no effect.", "quantifier": "every history, every item", "why_tests_cant": "All histories.", "anchors": ["aiok8s/workqueue/queue.py:Type.__len__", "aiok8s/workqueue/queue.py:Type.done"]}
{"id": "C08", "title": "Delay heap behaves as an earliest-deadline map", "statement": "The waiting heap holds at most one deadline per item - the earliest one inserted since it was last popped -, pop() returns the item with the smallest deadline (ties in insertion order), peek_priority() that deadline, len() the number of items; on an empty heap peek and pop raise KeyError.", "quantifier": "every sequence of insert, peek, pop and len, all items and deadlines", "why_tests_cant": "Lazy deletion leaves tombstones whose interplay with re-insertion depends on the whole history.", "anchors": ["aiok8s/workqueue/delaying_queue.py:_WaitForPriorityQueue"]}
{"id": "C09", "title": "add_after never delivers early", "statement": "An item reaches a consumer of a delaying queue at clock reading T only if it was add()-ed directly, or some add_after(x, d) was called at clock reading t0 with t0+d <= T.", "quantifier": "every history of add, add_after, get, done, shut_down, clock advances and every schedule of the background loop", "why_tests_cant": "Depends on the interleaving of the background loop with callers and with the clock.", "anchors": ["aiok8s/workqueue/delaying_queue.py:_DelayingType.add_after", "aiok8s/workqueue/delaying_queue.py:_DelayingType._waiting_loop"]}
{"id": "C10", "title": "add_after is never forgotten and is delivered as soon as the loop runs after the deadline", "statement": "While the queue is not shut down, every add_after(x, d) that returned is either already put on the ready queue or still tracked with a deadline no later than t0+d; whenever the background loop goes to sleep every tracked deadline is in the future and a timer for the earliest one is armed, and once the clock reaches a tracked deadline the loop, when scheduled, moves every due item to the ready queue within a bounded number of its own steps.", "quantifier": "every history, every schedule", "why_tests_cant": "Liveness over all schedules and clock readings.", "anchors": ["aiok8s/workqueue/delaying_queue.py:_DelayingType._waiting_loop", "aiok8s/workqueue/delaying_queue.py:_DelayingType.add_after"]}
{"id": "C11", "title": "shut_down of a delaying or rate limited queue stops consumers and producers", "statement": "After shut_down() on a delaying / rate-limiting queue: shutting_down() is True, add() is ignored and a get() on an empty queue returns the shutdown signal. (REFUTED: shut_down calls itself instead of the base class, so the queue never shuts down.)", "quantifier": "every history containing a shut_down", "why_tests_cant": "The defect shows as a hang: a test that never calls shut_down on this class cannot see it, and a hang cannot be observed in finite time.", "anchors": ["aiok8s/workqueue/delaying_queue.py:_DelayingType.shut_down", "aiok8s/workqueue/queue.py:Type.shut_down"]}
{"id": "C12", "title": "Duplicate delayed adds coalesce to the earliest deadline", "statement": "While an item is tracked by the delay loop, further add_after calls for it never postpone it, and the tracked deadline is the minimum of those requested since it was last released; it is moved to the ready queue once for that whole group.", "quantifier": "every history", "why_tests_cant": "All orders of insertion and release.", "anchors": ["aiok8s/workqueue/delaying_queue.py:_WaitForPriorityQueue.insert", "aiok8s/workqueue/delaying_queue.py:_WaitForPriorityQueue._remove"]}
{"id": "C13", "title": "Exponential limiter: delay is base*2^n capped, per item, reset by forget", "statement": "when(x) returns min(base*2**n, max) where n is the number of when(x) calls since the last forget(x); num_requeues(x) is that n; operations on other items never influence it.", "quantifier": "every interleaved history of when/forget/num_requeues over all items, all base and max (up to 1023 consecutive failures for a float base)", "why_tests_cant": "All histories and all exponents.", "anchors": ["aiok8s/workqueue/default_rate_limiters.py:ItemExponentialFailureRateLimiter"]}
{"id": "C14", "title": "Exponential limiter never fails, however many failures", "statement": "when(x) returns a delay for every number of consecutive failures. (REFUTED: with a float base delay the 1025th consecutive when(x) raises OverflowError and keeps raising until forget(x); with an integer base it never fails.)", "quantifier": "every number of consecutive failures", "why_tests_cant": "The shipped test stops at 1000 failures; the overflow is at 1024.", "anchors": ["aiok8s/workqueue/default_rate_limiters.py:ItemExponentialFailureRateLimiter.when", "aiok8s/workqueue/default_rate_limiters.py:default_controller_rate_limiter"]}
{"id": "C15", "title": "Token bucket conformance", "statement": "For any closed time window [a,b], the number of callers whose release time (call time + returned delay) falls in the window is at most burst + limit*(b-a), provided the clock does not go backwards. (Without monotone time it is REFUTED.)", "quantifier": "every nondecreasing sequence of call times, every window, every limit>0 and burst>=1", "why_tests_cant": "Quantifies over all call patterns and windows.", "anchors": ["aiok8s/workqueue/default_rate_limiters.py:BucketRateLimiter.when", "aiok8s/workqueue/default_rate_limiters.py:BucketRateLimiter._advance"]}
{"id": "C16", "title": "Token bucket grants immediately when tokens are available and never over-delays", "statement": "The returned delay is never negative; stored tokens never exceed burst; a caller waits only when the bucket is empty and then exactly the time to accumulate its token; after an idle period of burst/limit seconds the next floor(burst) calls are immediate.", "quantifier": "every sequence of call times", "why_tests_cant": "All call patterns.", "anchors": ["aiok8s/workqueue/default_rate_limiters.py:BucketRateLimiter.when", "aiok8s/workqueue/default_rate_limiters.py:BucketRateLimiter._advance"]}
{"id": "C17", "title": "Combined limiter takes the worst delay and feeds every limiter", "statement": "The combined limiter's when(x) is the maximum of its members' answers, every member is advanced exactly as if it had been called alone, forget reaches every member, num_requeues is the maximum.", "quantifier": "every history, any number of member limiters", "why_tests_cant": "All histories and member lists.", "anchors": ["aiok8s/workqueue/default_rate_limiters.py:_MaxOfRateLimiters", "aiok8s/workqueue/rate_limiting_queue.py:_RateLimitingType"]}
{"id": "C18", "title": "FIFO delivers each stored object once with its latest value and never loses one", "statement": "An object stored by add/update/replace/add_if_not_present stays retrievable until popped, deleted or replaced; pop delivers, for its key, exactly the value last stored; after delivery it is not delivered again unless stored again; every stored key is delivered after finitely many pops.", "quantifier": "every history", "why_tests_cant": "All histories, including delete/re-add leaving stale queue entries.", "anchors": ["aiok8s/cache/fifo.py:FIFO.add", "aiok8s/cache/fifo.py:FIFO.pop", "aiok8s/cache/fifo.py:FIFO.delete", "aiok8s/cache/fifo.py:FIFO.replace"]}
{"id": "C19", "title": "FIFO deleted objects are not delivered", "statement": "After delete(obj) succeeds, no pop delivers that key until it is stored again; delete of an absent key raises KeyError and leaves stored objects unchanged.", "quantifier": "every history", "why_tests_cant": "All histories with stale queue entries.", "anchors": ["aiok8s/cache/fifo.py:FIFO.delete", "aiok8s/cache/fifo.py:FIFO.pop"]}
{"id": "C20", "title": "FIFO has_synced means the first batch was popped", "statement": "If the first population of a FIFO is replace(list), has_synced() becomes true exactly when as many queue entries as the batch held were consumed; with no second replace this means every object of the batch was popped or deleted. (With a later, shorter replace it can stay false on a drained queue: REFUTED.)", "quantifier": "every history", "why_tests_cant": "All histories, including replace during initial sync.", "anchors": ["aiok8s/cache/fifo.py:FIFO.has_synced", "aiok8s/cache/fifo.py:FIFO.replace", "aiok8s/cache/fifo.py:FIFO.pop"]}
{"id": "C21", "title": "FIFO resync never changes content or order", "statement": "resync() of a FIFO leaves the pending objects, their order and every later pop unchanged.", "quantifier": "every reachable state", "why_tests_cant": "All reachable states.", "anchors": ["aiok8s/cache/fifo.py:FIFO.resync"]}
{"id": "C22", "title": "FIFO processing errors: requeue on request, error otherwise", "statement": "If the process callback raises RequeueError the popped object is stored again at the tail and pop returns it, or raises ProcessError carrying it when the error has a cause; any other exception raises ProcessError carrying the object without storing it again.", "quantifier": "every state and every callback outcome", "why_tests_cant": "All states.", "anchors": ["aiok8s/cache/fifo.py:FIFO.pop"]}
{"id": "C23", "title": "Closing a FIFO/DeltaFIFO drains then fails pops", "statement": "After close(), pop still delivers pending entries and raises FIFOClosedError exactly when none is left; it never blocks; a task already blocked in pop is woken, in every schedule including cancellations.", "quantifier": "every history and schedule", "why_tests_cant": "Schedules of waiters and closers.", "anchors": ["aiok8s/cache/fifo.py:FIFO.close", "aiok8s/cache/fifo.py:FIFO.pop", "aiok8s/cache/delta_fifo.py:DeltaFIFO.close", "aiok8s/cache/delta_fifo.py:DeltaFIFO.pop"]}
{"id": "C24", "title": "DeltaFIFO delivers every change of a key, once, in order", "statement": "For every key, the concatenation of the delta lists already popped for it followed by the pending list equals the sequence of changes accepted for it, where only a deletion directly following a pending deletion is merged.", "quantifier": "every history of add/update/delete/replace/resync/pop", "why_tests_cant": "All histories.", "anchors": ["aiok8s/cache/delta_fifo.py:DeltaFIFO._queue_action_locked", "aiok8s/cache/delta_fifo.py:DeltaFIFO.pop", "aiok8s/cache/delta_fifo.py:_dedup_deltas"]}
{"id": "C25", "title": "DeltaFIFO pending lists are non-empty, without adjacent deletions, and end in the last change", "statement": "Every pending delta list is non-empty, never holds two adjacent Deleted deltas, belongs to one key, each pending key is queued exactly once, and its newest delta reflects the last accepted change; of two merged deletions the one carrying the real object survives.", "quantifier": "every reachable state", "why_tests_cant": "All histories.", "anchors": ["aiok8s/cache/delta_fifo.py:_dedup_deltas", "aiok8s/cache/delta_fifo.py:_is_dup", "aiok8s/cache/delta_fifo.py:DeltaFIFO._queue_action_locked"]}
{"id": "C26", "title": "DeltaFIFO keys are served first-in first-out", "statement": "Keys are popped in the order in which they last became pending; new deltas for a pending key do not move it.", "quantifier": "every history", "why_tests_cant": "All histories.", "anchors": ["aiok8s/cache/delta_fifo.py:DeltaFIFO.pop", "aiok8s/cache/delta_fifo.py:DeltaFIFO._queue_action_locked"]}
{"id": "C27", "title": "DeltaFIFO has_synced is exact for the first replace", "statement": "If the first population is replace(list) with distinct keys, has_synced() turns true exactly when every key of that batch (including the deletions it generated) has been popped, and stays true. (With duplicate keys in the list it can stay false on a drained queue: REFUTED.)", "quantifier": "every history, every list, every set of known objects", "why_tests_cant": "All histories.", "anchors": ["aiok8s/cache/delta_fifo.py:DeltaFIFO.has_synced", "aiok8s/cache/delta_fifo.py:DeltaFIFO.replace", "aiok8s/cache/delta_fifo.py:DeltaFIFO.pop"]}
{"id": "C28", "title": "Replace announces every disappearance", "statement": "replace(list) queues a deletion for every known object whose key is not in list, carrying the last known object, and queues a Sync for every listed object except those whose pending deltas end in a deletion; nothing else changes.", "quantifier": "every state, every list, every known-object set", "why_tests_cant": "All states.", "anchors": ["aiok8s/cache/delta_fifo.py:DeltaFIFO.replace", "aiok8s/cache/delta_fifo.py:DeletedFinalStateUnknown"]}
{"id": "C29", "title": "After replace(list) and a drain the cache equals the list", "statement": "Once replace(list) was called and all pending deltas were processed into the known-object store, the store holds exactly list. (REFUTED in two ways by the code: a listed object whose pending deltas end in Deleted is dropped; an object pending but not yet in the store and not listed survives. Proved: the exact final content for every pending state, hence equality whenever neither situation is present.)", "quantifier": "every pending state, every list, every store content", "why_tests_cant": "The two failing situations need a relist racing with unprocessed deltas.", "anchors": ["aiok8s/cache/delta_fifo.py:DeltaFIFO.replace", "aiok8s/cache/delta_fifo.py:DeltaFIFO._queue_action_locked", "aiok8s/cache/delta_fifo.py:DeltaFIFO._will_object_be_deleted_locked"]}
{"id": "C30", "title": "Resync re-announces every quiet known object and only those", "statement": "resync() queues exactly one Sync delta with the known object for each known key without pending deltas, leaves pending keys untouched, and processing it does not change the store.", "quantifier": "every state", "why_tests_cant": "All states.", "anchors": ["aiok8s/cache/delta_fifo.py:DeltaFIFO.resync", "aiok8s/cache/delta_fifo.py:DeltaFIFO._sync_key_locked"]}
{"id": "C31", "title": "DeltaFIFO processing errors", "statement": "RequeueError puts the popped deltas back under the same key; other exceptions raise ProcessError carrying the deltas and drop them; a consumer that re-adds them with add_if_not_present never displaces newer deltas.", "quantifier": "every state, every callback outcome", "why_tests_cant": "All states.", "anchors": ["aiok8s/cache/delta_fifo.py:DeltaFIFO.pop", "aiok8s/cache/delta_fifo.py:DeltaFIFO.add_if_not_present", "aiok8s/cache/controller.py:_Controller._process_loop"]}
{"id": "C32", "title": "Store is a map from key to the last stored object", "statement": "Store.add/update/delete/replace/get/get_by_key/list/list_keys behave as one abstract map under the key function; list_keys has no duplicates; a key function failure raises StoreKeyError and changes nothing, even inside replace.", "quantifier": "every history, every key function", "why_tests_cant": "All histories.", "anchors": ["aiok8s/cache/store.py:_Cache", "aiok8s/cache/thread_safe_store.py:_ThreadSafeMap"]}
{"id": "C33", "title": "Secondary indices agree with content", "statement": "by_index(name, v), index_keys(name, v), index(name, obj) and list_index_func_values(name) always return exactly the objects / keys / values obtained by recomputing the index function over the current content, without duplicates, provided index functions do not fail and return distinct values.", "quantifier": "every history, all index functions of that kind", "why_tests_cant": "All histories of add/update/delete/replace.", "anchors": ["aiok8s/cache/thread_safe_store.py:_ThreadSafeMap._update_indices", "aiok8s/cache/thread_safe_store.py:_ThreadSafeMap._delete_from_indices", "aiok8s/cache/thread_safe_store.py:_ThreadSafeMap.by_index", "aiok8s/cache/thread_safe_store.py:_ThreadSafeMap.index"]}
{"id": "C34", "title": "Index functions may return repeated values", "statement": "Store operations succeed and indices stay right even if an index function returns the same value twice. (REFUTED: deleting or updating an object whose index values repeat, while another object shares the value, raises KeyError and the object can no longer be removed.)", "quantifier": "every index function", "why_tests_cant": "Needs the right combination of shared and repeated values.", "anchors": ["aiok8s/cache/thread_safe_store.py:_ThreadSafeMap._delete_from_indices"]}
{"id": "C35", "title": "add_indexers accepts new non-conflicting indexers on an empty store", "statement": "add_indexers succeeds on an empty store iff no name is already taken. (REFUTED: any non-empty set of names is rejected as a conflict, because the union instead of the intersection is tested.)", "quantifier": "every pair of indexer sets", "why_tests_cant": "All indexer sets; no shipped test calls it.", "anchors": ["aiok8s/cache/thread_safe_store.py:_ThreadSafeMap.add_indexers"]}
{"id": "C36", "title": "Object keys are unambiguous and the reader uses the same key", "statement": "Distinct (namespace, name) pairs without '/' in them have distinct store keys, and the key computed by the cache reader for a NamespacedName equals the key under which an object with that namespace and name is stored; tombstones map to the key of the object they stand for. (Without the '/' restriction it is REFUTED; dict objects without a namespace entry cannot be keyed at all: REFUTED.)", "quantifier": "every object and every namespaced name", "why_tests_cant": "All strings.", "anchors": ["aiok8s/cache/store.py:meta_namespace_key_func", "aiok8s/controller/_cache_reader.py:_object_key_to_store_key", "aiok8s/cache/controller.py:deletion_handling_meta_namespace_key_func", "aiok8s/api/meta.py"]}
{"id": "C37", "title": "Reflector resumes each watch exactly after the last event it applied", "statement": "The resource version passed to every watch call, and last_sync_resource_version(), is that of the last accepted event, or of the list if none; so over any number of watch restarts no event is skipped or applied twice.", "quantifier": "every sequence of lists, watches, events, disconnections", "why_tests_cant": "All histories of disconnects.", "anchors": ["aiok8s/cache/reflector.py:Reflector.list_and_watch", "aiok8s/cache/reflector.py:Reflector._watch_handler"]}
{"id": "C38", "title": "Reflector applies exactly the understood events, in order", "statement": "Each ADDED/MODIFIED/DELETED event with the expected type reaches the store as add/update/delete once and in order; events of other types or without metadata are skipped without advancing the resource version; BOOKMARK advances only the resource version; an ERROR event ends the watch without touching the store; a store failure is swallowed and still advances the version; after a failed resync at most one more event is applied before the watch ends.", "quantifier": "every event sequence", "why_tests_cant": "All event sequences.", "anchors": ["aiok8s/cache/reflector.py:Reflector._watch_handler"]}
{"id": "C39", "title": "Reflector store mirrors the server at its last synced version", "statement": "With a plain store, at every moment between events the store content equals the server's state at last_sync_resource_version(), whatever the pattern of watch closings, errors and relists.", "quantifier": "every server history, every schedule of lists, watch segments and failures", "why_tests_cant": "All server histories and failure points.", "anchors": ["aiok8s/cache/reflector.py:Reflector.list_and_watch", "aiok8s/cache/reflector.py:Reflector._sync_with", "aiok8s/cache/reflector.py:Reflector._watch_handler"]}
{"id": "C40", "title": "Any failure of a watch leads to a new list", "statement": "Whenever the watch stream ends (close, ERROR event, exception from the stream, store resync failure) list_and_watch either opens a new watch or returns so that run() lists again; it never hangs on a finished stream. (REFUTED for an exception raised by the watch stream itself: the handler then waits forever.)", "quantifier": "every way a watch can end", "why_tests_cant": "A hang cannot be observed by a finite test; shipped fakes never raise from the iterator.", "anchors": ["aiok8s/cache/reflector.py:Reflector._watch_handler", "aiok8s/cache/reflector.py:Reflector.run"]}
{"id": "C41", "title": "Group/version/kind filtering works for every API group", "statement": "For unstructured objects the reflector compares the object's group/version/kind for every apiVersion. (REFUTED: apiVersion values without exactly one '/', such as core 'v1', raise ValueError; for the others parsing inverts rendering.)", "quantifier": "every apiVersion string", "why_tests_cant": "All strings; shipped tests never parse an apiVersion.", "anchors": ["aiok8s/api/meta.py:_ObjectAccessor.group_version_kind", "aiok8s/cache/reflector.py:Reflector._watch_handler"]}
{"id": "C42", "title": "Informer cache converges to the server state", "statement": "For an informer fed by list and watch, when all pending deltas are processed the client store equals the server state at the last synced version, provided that at each relist no listed key is pending deletion and no unlisted key is pending-but-unstored (in particular if the queue is drained at relists). Resyncs at any time do not disturb this.", "quantifier": "every server history, every interleaving of reflector, resync and processing", "why_tests_cant": "All interleavings of producer and consumer.", "anchors": ["aiok8s/cache/controller.py:_new_informer", "aiok8s/cache/delta_fifo.py:DeltaFIFO", "aiok8s/cache/reflector.py:Reflector.list_and_watch"]}
{"id": "C43", "title": "Handler callbacks form a consistent life cycle per object", "statement": "For each key the callbacks form add, update*, delete cycles: on_add only when the object is absent from the store, on_update(old, new) only with old equal to the object delivered last, on_delete only when present; after each callback the store already reflects it.", "quantifier": "every interleaving of list, watch, resync and processing, handlers not raising", "why_tests_cant": "All interleavings.", "anchors": ["aiok8s/cache/controller.py:_new_informer", "aiok8s/cache/shared_informer.py:_SharedIndexInformer.handle_deltas"]}
{"id": "C44", "title": "A failing handler does not corrupt the informer cache", "statement": "If a handler callback raises, the remaining pending changes of that object still reach the store. (REFUTED: the rest of the popped delta list is dropped, so e.g. a deletion can be lost and the store stays stale until the next relist.)", "quantifier": "every handler behaviour", "why_tests_cant": "Needs a batch of deltas and a failure in the middle.", "anchors": ["aiok8s/cache/controller.py:_new_informer", "aiok8s/cache/controller.py:_Controller._process_loop"]}
{"id": "C45", "title": "Each shared-informer handler gets its notifications once, in order", "statement": "For every handler, the notifications handled so far are a prefix of those distributed to it, in the same order, none dropped or duplicated, in every schedule until stop; if the handler keeps returning, all of them get handled.", "quantifier": "every interleaving of distributor, pump and handler tasks", "why_tests_cant": "All schedules of three tasks and two bounded queues.", "anchors": ["aiok8s/cache/shared_informer.py:_ProcessListener._add", "aiok8s/cache/shared_informer.py:_ProcessListener._pop", "aiok8s/cache/shared_informer.py:_ProcessListener._run"]}
{"id": "C46", "title": "A slow handler does not stall the informer", "statement": "Distribution to a handler never waits for that handler to return. (REFUTED: while one callback is running at most two further notifications are accepted; the next one blocks distribution to every handler.)", "quantifier": "every schedule", "why_tests_cant": "A stall cannot be distinguished from slowness by a test.", "anchors": ["aiok8s/cache/shared_informer.py:_ProcessListener._pop", "aiok8s/cache/shared_informer.py:_SharedProcessor._distribute"]}
{"id": "C47", "title": "A handler added late sees every cached object and everything after", "statement": "A handler added to a running informer receives an add for each object currently cached and then exactly the later changes, so replaying its notifications always yields the cache content, provided relists happen while it is in the syncing set.", "quantifier": "every moment of registration, every history", "why_tests_cant": "All histories.", "anchors": ["aiok8s/cache/shared_informer.py:_SharedIndexInformer.add_event_handler", "aiok8s/cache/shared_informer.py:_SharedIndexInformer.handle_deltas"]}
{"id": "C48", "title": "Objects discovered by a relist are announced to every handler", "statement": "Every object that enters or changes in the cache is notified to every handler. (REFUTED: relisted objects travel as Sync deltas, which after a resync check are sent only to handlers that were due for resync.)", "quantifier": "every history", "why_tests_cant": "Needs a relist after a resync tick.", "anchors": ["aiok8s/cache/shared_informer.py:_SharedIndexInformer.handle_deltas", "aiok8s/cache/shared_informer.py:_SharedProcessor._should_resync", "aiok8s/cache/shared_informer.py:_SharedProcessor._distribute"]}
{"id": "C49", "title": "Resync periods are honoured", "statement": "Each handler's effective period is 0 (never) or at least both its request (raised to 1s) and the check period in force when set; before start the check period is the minimum of the default and the (raised) requests; two consecutive resyncs of a handler are at least its period apart and a due handler is resynced at the next check.", "quantifier": "every sequence of registrations and clock readings", "why_tests_cant": "All registration orders.", "anchors": ["aiok8s/cache/shared_informer.py:_SharedIndexInformer.add_event_handler", "aiok8s/cache/shared_informer.py:_determine_resync_period", "aiok8s/cache/shared_informer.py:_ProcessListener._should_resync", "aiok8s/cache/shared_informer.py:_SharedProcessor._should_resync"]}
{"id": "C50", "title": "has_synced implies the initial list is in the cache", "statement": "When has_synced() of an informer returns true, every object of the first list has been applied to its cache. (REFUTED while the last initial item is still being processed; proved whenever no item is being processed.)", "quantifier": "every schedule", "why_tests_cant": "A window of one suspended task.", "anchors": ["aiok8s/cache/delta_fifo.py:DeltaFIFO.has_synced", "aiok8s/cache/delta_fifo.py:DeltaFIFO.pop", "aiok8s/cache/shared_informer.py:_SharedIndexInformer.has_synced"]}
{"id": "C51", "title": "Backoff steps follow duration*factor^k up to the cap", "statement": "The k-th step without jitter returns duration*factor^k, never exceeding the cap once reached, constant afterwards; steps never goes below zero.", "quantifier": "all parameters, every number of steps", "why_tests_cant": "All parameters.", "anchors": ["aiok8s/util/wait.py:Backoff.step"]}
{"id": "C52", "title": "exponential_backoff calls the condition at most steps times and its outcome is the condition's", "statement": "It returns iff some evaluated call was true, stops at the first true, raises WaitTimeoutError after at most `steps` false ones and never sleeps after the last call when no cap interferes; it leaves the caller's Backoff unchanged. (Termination REFUTED for negative steps.)", "quantifier": "all parameters, every condition behaviour", "why_tests_cant": "All condition behaviours.", "anchors": ["aiok8s/util/wait.py:exponential_backoff"]}
{"id": "C53", "title": "jitter stays within bounds", "statement": "jitter(d, f) lies in [d, d*(1+f)) for f>0 and in [d, 2d) otherwise.", "quantifier": "all d>=0, f, random values in [0,1)", "why_tests_cant": "Randomised.", "anchors": ["aiok8s/util/wait.py:jitter"]}
{"id": "C54", "title": "Fake timers fire exactly once, at the first step reaching their time", "statement": "A timer created at time t with delay d is delivered exactly once, at the first set_time/step that reaches t+d, unless stopped before; stop() returns True iff it had not fired or been stopped; reset moves the target only of a pending timer.", "quantifier": "every history of timer creation, stop, reset and time steps", "why_tests_cant": "All histories.", "anchors": ["aiok8s/util/clock.py:FakeClock", "aiok8s/util/clock.py:_FakeTimer"]}
{"id": "C55", "title": "Fake tickers tick at multiples of their period and never block", "statement": "After each time step a ticker's next tick is in the future and on its grid start+k*d, at most one unread tick is buffered, and the step never blocks on it.", "quantifier": "every history, every period", "why_tests_cant": "All histories.", "anchors": ["aiok8s/util/clock.py:FakeClock._set_time_locked", "aiok8s/util/clock.py:FakeClock.new_ticker"]}
{"id": "C56", "title": "Broadcaster delivers every event to every watcher in order (waiting mode)", "statement": "In waiting mode each watcher that is not stopped receives exactly the events submitted after its registration was processed, in submission order, preceded by its prefix events.", "quantifier": "every interleaving of submitters, watchers, registration, consumption and stopping", "why_tests_cant": "All schedules.", "anchors": ["aiok8s/watch/mux.py:Broadcaster._distribute", "aiok8s/watch/mux.py:Broadcaster.watch", "aiok8s/watch/mux.py:Broadcaster.watch_with_prefix"]}
{"id": "C57", "title": "Broadcaster in drop mode drops only when the watcher's buffer is full", "statement": "In dropping mode a watcher receives a subsequence of the submitted events; an event is missing only if its buffer was full when the event was distributed; the distributor never blocks.", "quantifier": "every interleaving", "why_tests_cant": "All schedules.", "anchors": ["aiok8s/watch/mux.py:Broadcaster._distribute"]}
{"id": "C58", "title": "Broadcaster shutdown", "statement": "After shutdown() returns, all events submitted before it were distributed and every watcher terminates after draining its buffer. Calls to action() after shutdown are silently swallowed until the incoming queue fills and then block forever; watch() after shutdown never returns (REFUTES 'fails cleanly').", "quantifier": "every interleaving", "why_tests_cant": "Hangs are unobservable by tests.", "anchors": ["aiok8s/watch/mux.py:Broadcaster.shutdown", "aiok8s/watch/mux.py:Broadcaster._loop", "aiok8s/watch/mux.py:Broadcaster.action"]}
{"id": "C59", "title": "Leader elector accepts only consistent timing configurations", "statement": "Construction succeeds iff lease_duration > renew_deadline > 1.2*retry_period > 0 and the callbacks and lock are given.", "quantifier": "all configurations", "why_tests_cant": "All numeric configurations.", "anchors": ["aiok8s/leaderelection/leaderelection.py:LeaderElector.__init__"]}
{"id": "C60", "title": "At most one elector leads at a time", "statement": "Over any number of electors sharing one lock object and any interleaving of their requests at the API server, at most one of them has on_started_leading running between acquiring and losing, unless the lock object is deleted.", "quantifier": "every number of electors, every interleaving, every clock skew", "why_tests_cant": "All interleavings.", "anchors": ["aiok8s/leaderelection/leaderelection.py:LeaderElector.run", "aiok8s/leaderelection/leaderelection.py:LeaderElector._try_acquire_or_renew", "aiok8s/leaderelection/resourcelock.py:ConfigMapLock"]}
{"id": "C61", "title": "A healthy leader keeps its lease", "statement": "An elector that acquired the lease and reaches the server keeps leading. (REFUTED: the first renewal always fails on an attribute that is never initialised, so run() always ends with an exception after at most one renewal attempt; and with a server that answers 404 for a missing object no elector ever acquires.)", "quantifier": "every server behaviour", "why_tests_cant": "All server behaviours; there is no shipped test of this module.", "anchors": ["aiok8s/leaderelection/leaderelection.py:LeaderElector._try_acquire_or_renew", "aiok8s/leaderelection/leaderelection.py:LeaderElector.is_leader", "aiok8s/leaderelection/leaderelection.py:LeaderElector._maybe_report_transition", "aiok8s/leaderelection/resourcelock.py:ConfigMapLock.get"]}
{"id": "C62", "title": "Reconciler is never run concurrently for the same request", "statement": "Whatever the number of workers, at most one reconcile(request) for a given request is running at any time, and each finished reconcile releases its request exactly once.", "quantifier": "every number of workers, every interleaving, every reconcile outcome", "why_tests_cant": "All schedules.", "anchors": ["aiok8s/controller/controller.py:_Controller._process_next_work_item", "aiok8s/controller/controller.py:_Controller._reconcile_handler"]}
{"id": "C63", "title": "Outcome table of a reconcile", "statement": "Error: requeued with back-off and failure count kept; requeue_after: count reset and requeued after that delay; requeue: requeued with back-off; success: count reset and not requeued; not-a-Request: dropped and count reset. (A failed reconcile is always retried: REFUTED after 1024 consecutive failures, when the request is silently dropped.)", "quantifier": "every request, every outcome, every limiter state", "why_tests_cant": "All limiter states.", "anchors": ["aiok8s/controller/controller.py:_Controller._reconcile_handler", "aiok8s/controller/controller.py:_Controller._process_next_work_item"]}
{"id": "C64", "title": "Every observed change is followed by a later reconcile", "statement": "An add/update notification for an object, arriving at any time including during its reconcile, leads to a reconcile of its namespaced name that starts after the notification, as long as workers keep running and predicates accept it.", "quantifier": "every interleaving", "why_tests_cant": "All interleavings of events and workers.", "anchors": ["aiok8s/controller/source.py:EventHandler", "aiok8s/controller/handler.py:EnqueueRequestForObject", "aiok8s/controller/controller.py:_Controller._process_next_work_item"]}
{"id": "C65", "title": "Deletions observed only through a relist trigger a reconcile", "statement": "Every deletion, including one discovered by a relist, enqueues a request. (REFUTED: relist deletions arrive as DeletedFinalStateUnknown, whose metadata cannot be read, and are dropped; direct deletions do enqueue.)", "quantifier": "every deletion", "why_tests_cant": "Needs a relist that misses a deletion.", "anchors": ["aiok8s/controller/source.py:EventHandler.on_delete", "aiok8s/api/meta.py:accessor", "aiok8s/cache/delta_fifo.py:DeletedFinalStateUnknown"]}
{"id": "C66", "title": "Predicates gate events conjunctively", "statement": "An event reaches the handler iff its object has metadata and all predicates accept it; evaluation stops at the first refusal. For an accepted event one of whose objects has no readable name or namespace the handler raises, having added the requests of the objects before it.", "quantifier": "every list of predicates, every event", "why_tests_cant": "All predicate lists.", "anchors": ["aiok8s/controller/source.py:EventHandler"]}
{"id": "C67", "title": "One informer per kind; informers requested after start", "statement": "The cache creates at most one informer per kind however many concurrent requests are made. A kind first requested after the cache was started is never run, so the request waits forever (REFUTES 'get returns').", "quantifier": "every interleaving of requests and start", "why_tests_cant": "Hang.", "anchors": ["aiok8s/controller/_informers_map.py:_SpecificInformersMap"]}
{"id": "C68", "title": "Resync period jitter is around the configured period", "statement": "The informer resync period is within 10 percent of the configured one. (REFUTED: it is always below 18 percent of it, and can be arbitrarily close to 0.)", "quantifier": "every random value", "why_tests_cant": "Randomised.", "anchors": ["aiok8s/controller/_informers_map.py:_resync_period"]}
{"id": "C69", "title": "Fake source: list then watch from its version misses nothing", "statement": "For the fake API source, the state listed at a version followed by the events of a watch from that version reproduces the state at every later version.", "quantifier": "every history of changes", "why_tests_cant": "All histories.", "anchors": ["aiok8s/cache/testing/fake_controller_source.py:FakeControllerSource"]}
{"id": "C70", "title": "Client registry is one-to-one", "statement": "A kind can be registered once; object types and kinds registered map to each other.", "quantifier": "every sequence of client class definitions", "why_tests_cant": "All registration sequences.", "anchors": ["aiok8s/controller/client.py:_Client"]}
{"id": "C71", "title": "Manager starts each runnable once after the caches synced", "statement": "start() starts every added runnable exactly once and only after the caches reported synced; a second start() fails with a TypeError while the runnables are started a second time.", "quantifier": "every set of runnables", "why_tests_cant": "All interleavings.", "anchors": ["aiok8s/controller/manager.py:_ControllerManager"]}
{"id": "C72", "title": "poll waits an interval before each call and its outcome is the condition's", "statement": "poll calls the condition only after each interval, one call at a time; it returns iff the last answer was true, passes on the condition's exception, and raises WaitTimeoutError only when the timeout passed. (Last part REFUTED: an asyncio.TimeoutError raised by the condition becomes WaitTimeoutError at once.)", "quantifier": "all intervals, timeouts, durations and answers of the condition", "why_tests_cant": "All timings and condition behaviours.", "anchors": ["aiok8s/util/wait.py:poll", "aiok8s/util/wait.py:poll_infinite", "aiok8s/util/wait.py:poll_immediate"]}
{"id": "C73", "title": "jitter_until calls are a period apart and stop with the event", "statement": "Consecutive calls are at least the period apart (from the end of the previous one if sliding); none begins after the stop event was set and the function then ends without waiting for the timer; before that the next call begins once the timer fires.", "quantifier": "all periods, jitters, call durations and interleavings with the stop event", "why_tests_cant": "All interleavings.", "anchors": ["aiok8s/util/wait.py:jitter_until", "aiok8s/util/wait.py:until"]}
{"id": "C74", "title": "Cache reads only see synced informers", "statement": "A cache read that found the cache started answers from the kind's store only once its informer has synced; one that did not raises CacheNotStartedError without waiting; no informer is run more often than the cache is started. (That an informer once synced stays so is REFUTED: a second start replaces its controller.)", "quantifier": "every interleaving of reads, starts, runs and syncs", "why_tests_cant": "All interleavings.", "anchors": ["aiok8s/controller/cache.py:_InformerCache.get", "aiok8s/controller/_informers_map.py:_SpecificInformersMap.get", "aiok8s/cache/shared_informer.py:_SharedIndexInformer.run"]}
{"id": "C75", "title": "Controllers of a started manager come up", "statement": "Every controller of a started manager gets its event handlers registered and its workers started, provided every kind it watches had its informer made before the cache was started (as the builder does) and none is made later; without that proviso it is REFUTED: controllers begin only after the cache's start, so a kind without informer hangs the controller, and an informer made late hangs every controller that waits for the cache.", "quantifier": "every interleaving of starts, controllers, requests and informers", "why_tests_cant": "A hang that depends on the order in which tasks begin.", "anchors": ["aiok8s/controller/manager.py:_ControllerManager", "aiok8s/controller/controller.py:_Controller.start", "aiok8s/controller/source.py:Kind.start", "aiok8s/controller/builder.py:build_controller"]}
{"id": "C76", "title": "Fake watcher hands every event to its reader once and in order", "statement": "Without reset() and cancelled readers, every event given to action() is returned by __anext__ at most once and none is invented; one reader receives them in the order sent; action() returns only when everything sent was returned; an iteration ends only after stop(), with everything sent before the stop returned; and a reader under way can always go on. REFUTED with them: reset() during an iteration leaves reader and action() waiting forever, or fails the reader with an event in hand; a cancelled reader takes an event with it and blocks action() and reset() for good; and action() on a stopped watcher that nobody reads never returns.", "quantifier": "every number of readers, every interleaving, every cancellation", "why_tests_cant": "All interleavings of readers, senders, stop and reset.", "anchors": ["aiok8s/watch/watch.py:FakeWatcher.action", "aiok8s/watch/watch.py:FakeWatcher.__anext__", "aiok8s/watch/watch.py:FakeWatcher.stop", "aiok8s/watch/watch.py:FakeWatcher.reset"]}
{"id": "C77", "title": "A timer fires once, a ticker keeps its period and drops what nobody reads", "statement": "A Timer of the real clock puts at most one reading in its queue, without ever blocking, and it is read at most once; a Ticker's ticks are at least its period apart, so there are at most elapsed/period of them; neither fires earlier than its period (up to the resolution of the event loop's clock), and both are due once it has passed; the ticker's queue holds the oldest tick since the last read and ticks while it is full are dropped; after stop() nothing fires and at most one reading can still be read. REFUTED: ticks are not at multiples of the period - a tick that came late delays all later ones.", "quantifier": "every period, every clock resolution, every interleaving of delays, readers and stop", "why_tests_cant": "Tests cannot enumerate all delays of the event loop and all points of stop.", "anchors": ["aiok8s/util/_time.py:Timer", "aiok8s/util/_time.py:Ticker", "aiok8s/util/clock.py:RealClock"]}
{"id": "C78", "title": "The namespace index lists exactly the objects of a namespace", "statement": "In the store of an informer, which is keyed by namespace and name and indexed by namespace, by_index('namespace', ns) returns after every history of calls exactly the stored objects whose namespace is ns, each once; every stored API object is in exactly one namespace's set; and the index makes no add, update, delete or replace fail. REFUTED for two inputs: an ExplicitKey is stored although add raises, is in no set, can never be deleted, and the object put in its place is missing from the index too; and an object with an empty namespace shares the key of one without namespace but not its set.", "quantifier": "every history of store calls, every object", "why_tests_cant": "All histories of calls with objects changing namespace, tombstones and objects of both representations.", "anchors": ["aiok8s/cache/index.py:meta_namespace_index_func", "aiok8s/cache/thread_safe_store.py:_ThreadSafeMap._update_indices", "aiok8s/cache/thread_safe_store.py:_ThreadSafeMap._delete_from_indices", "aiok8s/controller/_informers_map.py:_SpecificInformersMap._add_informer_to_map"]}
{"id": "C79", "title": "A controller ends up having reconciled the last state of every object", "statement": "Server, reflector, shared informer, listener, event handler, queue and workers together: if every change of an object in the informer's cache is announced to the controller's handler (and the predicates accept it), then whenever nothing about the object is under way between cache and workers, a worker took the object's request after the last change of the cached object, so it was or is being reconciled with the cache as it is; if moreover the lists come when the pending changes permit it and the queue is drained, that cache is the server's state at the reflector's version. Both conditions hold when the reflector lists once and there are no resyncs. REFUTED in general: a list after a resync for another handler changes the cache without a request, and so does a list that discovers a deletion.", "quantifier": "every number of handlers and workers, every history of the server, every interleaving and failure of the parts", "why_tests_cant": "No test runs all parts together; the property is about all interleavings of seven concurrent parts.", "anchors": ["aiok8s/cache/shared_informer.py:_SharedIndexInformer", "aiok8s/cache/shared_informer.py:_SharedProcessor._distribute", "aiok8s/controller/source.py:EventHandler", "aiok8s/controller/controller.py:_Controller._process_next_work_item", "aiok8s/cache/reflector.py:Reflector.list_and_watch"]}
{"id": "C80", "title": "Under fair scheduling the controller converges to the server's state", "statement": "Infinite runs of server, reflector, shared informer, listener, event handler, queue and workers in which the informer is not stopped and every part goes on unless it cannot: the handler is called with every notification of its log, in order. If the changes of an object are announced, then again and again there is a moment at which a worker has taken the object's request after the last change of the cached object. If moreover the lists come when the pending changes permit it, then from the moment the server stops changing with a watch open, after finitely many steps the cached object is and stays the server's, and a worker took its request after the cache became so (unless the object never existed for the controller). The conditions on announcements and lists hold when the reflector lists once and there are no resyncs.", "quantifier": "every infinite fair run, every number of handlers and workers, every history of the server", "why_tests_cant": "Liveness over infinite runs with fairness per task; a test observes one finite prefix of one schedule.", "anchors": ["aiok8s/cache/shared_informer.py:_ProcessListener", "aiok8s/cache/shared_informer.py:_SharedProcessor._distribute", "aiok8s/cache/delta_fifo.py:DeltaFIFO.pop", "aiok8s/controller/source.py:EventHandler", "aiok8s/controller/controller.py:_Controller._process_next_work_item", "aiok8s/cache/reflector.py:Reflector.list_and_watch"]}
{"id": "C81", "title": "Delayed and failed requests come back until their reconcile succeeds", "statement": "In every infinite run of a delaying queue that is not shut down, whose clock passes every time, whose pending puts complete and whose background task goes on whenever it can (and wait_task is not passed over for ever), every item given to add_after is later owed by the ready queue, and so is every entry wherever it is kept. In every such run of the controller in which every worker goes on and one is never cancelled: a request added with a delay is given to a worker later; so is a request whose reconcile failed or asked to be repeated with fewer than 1024 failures counted, or set requeue_after; and if no worker is cancelled, a request that was added is reconciled until a reconcile does not fail or 1024 failures had been counted when it did.", "quantifier": "every infinite fair run, every number of workers, every history of adds, delays, answers of the reconciler and clock readings", "why_tests_cant": "Liveness over infinite runs with the clock; a test with a fake clock observes one schedule of one finite prefix.", "anchors": ["aiok8s/workqueue/delaying_queue.py:_DelayingType._waiting_loop", "aiok8s/workqueue/delaying_queue.py:_DelayingType.add_after", "aiok8s/workqueue/rate_limiting_queue.py:_RateLimitingType.add_rate_limited", "aiok8s/controller/controller.py:_Controller._reconcile_handler"]}
{"id": "C82", "title": "What ends with the manager's start", "statement": "If manager.start is cancelled while it waits for its tasks and no informer, worker or controller has ended by itself, every task under it (the cache, its informers, the controllers' starts, their workers) is asked to stop, they take only finitely many further steps, and when none can go on all have ended and start ended with an exception. After start has ended nothing that was not asked by then is ever asked to stop. However a controller's start that began ends, its queue is shut down. REFUTED in the other cases: cancelled while it waits for the cache to sync, start leaves the informers running; a controller that fails ends start and leaves the informers and the other controllers running; and a cancellation right after an informer failed does not reach the other informers.", "quantifier": "every number of informers, controllers and workers, every interleaving, failure and moment of the cancellation", "why_tests_cant": "Depends on which of many tasks has ended when the cancellation arrives; no test cancels a manager.", "anchors": ["aiok8s/controller/manager.py:_ControllerManager.start", "aiok8s/controller/cache.py:_InformerCache.start", "aiok8s/controller/controller.py:_Controller.start", "aiok8s/controller/_informers_map.py:_SpecificInformersMap.start"]}
{"id": "C83", "title": "A shared informer that is cancelled ends with all its tasks", "statement": "Once run was cancelled, and unless it is cancelled again, the tasks of the informer (run, the reflector, the processor, the pump and the run of each listener, and calls of add_event_handler) take only finitely many further steps of their own, and when none of them can go on all have ended. run does not end while a callback is running. REFUTED: if run is cancelled a second time while it waits for a call of add_event_handler, it ends and leaves the tasks of the processor and of the listeners running for ever; and a call of add_event_handler can wait until a running callback returns, so a callback that awaits one may never return.", "quantifier": "every number of handlers and notifications, every interleaving, every moment of the cancellation", "why_tests_cant": "Termination over all interleavings of six kinds of tasks and three locks; the tests cancel one idle informer.", "anchors": ["aiok8s/cache/shared_informer.py:_SharedIndexInformer.run", "aiok8s/cache/shared_informer.py:_SharedIndexInformer.add_event_handler", "aiok8s/cache/shared_informer.py:_SharedProcessor._run", "aiok8s/cache/shared_informer.py:_ProcessListener", "aiok8s/cache/controller.py:_Controller.run"]}
{"id": "C84", "title": "The last thing example.py prints about a pod is the server's state", "statement": "In every infinite run of example.py that is not stopped, whose parts go on unless they cannot, with one list and without resyncs, the server stops changing with a watch open: then from some point on everything that is printed for a pod is what the server has (the pod, or that it was deleted), and something is printed from which on it is so, unless the pod never existed for the controller. The line about a pod that is there names it. REFUTED for deletions: the line repeats the name in place of the namespace, so the deletions of two pods in different namespaces are printed alike.", "quantifier": "every infinite fair run, every history of the server with objects that have a namespace and a name without slash", "why_tests_cant": "No test runs the example; the claim is about the last output of infinite runs.", "anchors": ["example.py:Reconciler.reconcile", "example.py:_run", "aiok8s/controller/builder.py:build_controller", "aiok8s/controller/cache.py:_InformerCache.get", "aiok8s/controller/_cache_reader.py:CacheReader.get"]}
{"id": "C85", "title": "An informer asks for its kind and its namespace only, from the version it has", "statement": "Every request an informer of the cache sends is one the API accepts. It is made with the client registered first for the kind and selects the objects of the configured namespace, or of all namespaces if none is configured. A list carries the version 0 and nothing else; a watch carries the version of the last accepted event or list and a timeout of 300 to 600 seconds (600 only if the random number is 1-2^-53, whose sum with 1 is rounded up). With a server that answers a request with what it selects, no object of another namespace reaches the store. Nothing is asked for before a client is registered for the kind.", "quantifier": "every history of the reflector and of the registry, every namespace, every random number that random.random() can answer", "why_tests_cant": "Quantifies over all histories and over 2^53 random numbers; the tests use fake listers and watchers.", "anchors": ["aiok8s/controller/_informers_map.py:_create_structured_list_watch", "aiok8s/controller/_informers_map.py:_get_kwargs", "aiok8s/controller/client.py:_PodClient._get_lister", "aiok8s/controller/client.py:_Client._get_watcher", "aiok8s/cache/list_watch.py:ListWatch", "aiok8s/cache/reflector.py:Reflector.list_and_watch"]}
{"id": "C86", "title": "Resync checks come a resync period apart", "statement": "A reflector without a resync period never checks for resyncs. Otherwise two checks, and a list and the first check after it, are at least the period apart (up to the resolution of the loop's clock); while the resync task waits the next check is due one period later, and none comes after the watches of a list have ended. A handler of a shared informer with a resync period P is resynced at least once in P + D if checks are at most D apart. REFUTED: that there is a check every period: every list starts the period anew, so if the watches after each list end within a period there is never a resync.", "quantifier": "every run of the resync task and its timers, every period and lateness of the event loop; for the handlers every history of registrations and checks", "why_tests_cant": "Real time, unbounded runs and all moments at which a watch can end; a test waits for one resync.", "anchors": ["aiok8s/cache/reflector.py:Reflector.list_and_watch", "aiok8s/cache/reflector.py:Reflector._resync_queue", "aiok8s/util/_time.py:Timer", "aiok8s/cache/shared_informer.py:_SharedProcessor._should_resync"]}
{"id": "C87", "title": "No call of a queue is forgotten", "statement": "In every schedule with any number of tasks and cancellations, the calls begun are exactly those that were answered, those that were cancelled and those still under way: of get on a work queue, of all methods on a FIFO and a DeltaFIFO (a pop whose callback runs is under way), and of the puts that add_after of a delaying queue starts (here their numbers agree). After shut_down of the work queue or close of a FIFO, if each caller under way runs once, every call has ended; after close of a DeltaFIFO so if moreover the callbacks return.", "quantifier": "every number of tasks, every schedule and every moment of a cancellation", "why_tests_cant": "All interleavings of unboundedly many tasks; the tests await one consumer.", "anchors": ["aiok8s/workqueue/queue.py:Type.get", "aiok8s/cache/fifo.py:FIFO.pop", "aiok8s/cache/delta_fifo.py:DeltaFIFO.pop", "aiok8s/workqueue/delaying_queue.py:_DelayingType.add_after"]}
{"id": "C88", "title": "A reflector does not flood the API server", "statement": "Two lists are requested at least a second apart (up to the resolution of the loop's clock), whatever the server answers. Two watches with no list requested and no event accepted in between are a second apart on time.time(); if that clock runs with the loop's, there are at most as many watches as lists, accepted events and elapsed seconds together. REFUTED for watches that deliver an event: a server that sends one event and ends the watch is asked any number of times in the same instant.", "quantifier": "every run of the reflector with any server, store, filter, clock readings and lateness of the event loop", "why_tests_cant": "Real time and unbounded runs; no test measures the rate of requests.", "anchors": ["aiok8s/cache/reflector.py:Reflector.run", "aiok8s/cache/reflector.py:Reflector.list_and_watch", "aiok8s/cache/reflector.py:Reflector._watch_handler"]}
{"id": "C89", "title": "A worker that is cancelled takes no further request", "statement": "A worker that is cancelled while it waits for a request or sleeps takes none any more; since Python 3.8 neither does one that is reconciling. REFUTED before 3.8 (setup.py and tox.ini name 3.6 and 3.7), where CancelledError is an Exception and the handler around the reconciler swallows it: a worker that is reconciling survives any number of cancellations, and manager.start, cancelled with nothing failed, ends and leaves it running for ever.", "quantifier": "every state of the queue and the workers, every moment of a cancellation, both exception hierarchies", "why_tests_cant": "No test cancels a worker that reconciles.", "anchors": ["aiok8s/controller/controller.py:_Controller._process_next_work_item", "aiok8s/controller/controller.py:_Controller.start", "aiok8s/controller/manager.py:_ControllerManager.start", "setup.py"]}
{"id": "C90", "title": "A handler that raises pauses its listener for a minute", "statement": "After a handler of a shared informer raised, it is not called again and its task does not end for 60 seconds (less the resolution of the event loop's clock), so it raises at most once a minute; at any time at most four more notifications were accepted than given to the handler; hence a handler that raises every time lets at most one notification a minute be accepted, but for the first six of any span of time. After a stop request the handler is called at most three more times. REFUTED: that the listener ends soon after a stop request although callbacks take no time: it can take two minutes, with another call of the handler after the first.", "quantifier": "for all notifications, interleavings of the three tasks, times of all steps, clock resolutions, spans of a run", "why_tests_cant": "the bound is about all schedules and arbitrarily long spans; a test would have to wait minutes and sees one schedule", "anchors": ["aiok8s/cache/shared_informer.py:_ProcessListener._run", "aiok8s/cache/shared_informer.py:_ProcessListener._pop", "aiok8s/cache/shared_informer.py:_ProcessListener._add"]}
{"id": "C91", "title": "A started controller watches all its sources through its manager's cache", "statement": "A call of a controller's start starts the sources of exactly the watches made before it took the controller's mutex, in order and once each, before its workers begin; no source is started without a cache; the cache of a source is the one of the manager that the first controller watching it belonged to, hence with a single manager the one whose synchronization the controller waits for. REFUTED: that a watch made after (or during) the start is ever started; that a controller uses its own manager's cache when a Kind is shared between the controllers of two managers.", "quantifier": "all numbers of managers, controllers, sources and watches; all interleavings of watch, add and start, with any ending of a start", "why_tests_cant": "unbounded interleavings of watch and start; no test watches after the start", "anchors": ["aiok8s/controller/controller.py:_Controller.watch", "aiok8s/controller/controller.py:_Controller.start", "aiok8s/controller/manager.py:_ControllerManager.set_fields", "aiok8s/controller/source.py:Kind.inject_cache"]}
{"id": "C92", "title": "An informer that waits for its handler's listener stays close to the handler and still converges", "statement": "The process loop of a shared informer goes on only after _add of the handler's listener returned. Hence, from when the handler has its listener and was given the objects there were, the informer has at most four more notifications in the handler's log than the handler was called with (and four are possible). The waiting keeps nothing from going on for ever: if every task goes on again and again unless it cannot, the process loop included as it waits, the handler is called with every notification of its log in order, and with a single list, once the server rests and the watch stays open, the cached object becomes and stays the server's and a worker took its request afterwards.", "quantifier": "all runs, finite for the bound and infinite for the rest, of server, reflector, informer, listener, handler, queue and workers; all numbers of handlers, registered at any time", "why_tests_cant": "infinite runs and all interleavings of seven kinds of tasks; whether waiting can block for ever is a liveness property", "anchors": ["aiok8s/cache/shared_informer.py:_SharedProcessor._distribute", "aiok8s/cache/shared_informer.py:_ProcessListener._add", "aiok8s/cache/shared_informer.py:_SharedIndexInformer.handle_deltas", "aiok8s/cache/shared_informer.py:_SharedIndexInformer.add_event_handler"]}
{"id": "C93", "title": "What a controller does that is started more than once", "statement": "A controller that was started n times (manager.start starts its runnables each time it is called) runs at most n reconciles of the same request at a time; a request ends fewer than n workers by the KeyError of done, hence none if the controller is started once; and once a start made its queue, the earlier queues hand out at most one more request for each worker that was waiting for one. REFUTED for two starts: that a request is reconciled by one worker at a time; that the workers of the last start go on (done of a worker of the first start releases the request of another, whose own done then raises); that a request that was added is taken.", "quantifier": "all numbers of starts and workers, all requests, adds, outcomes and cancellations at any time, all interleavings", "why_tests_cant": "no test starts a controller twice; the effects depend on the interleaving of the workers of both starts", "anchors": ["aiok8s/controller/controller.py:_Controller.start", "aiok8s/controller/controller.py:_Controller._process_next_work_item", "aiok8s/workqueue/queue.py:Type.done", "aiok8s/controller/manager.py:_ControllerManager.start"]}
{"id": "C94", "title": "All handlers of a shared informer are given everything, in step with each other", "statement": "Every handler of a shared informer is called with the objects there were when it was registered, then with every notification (those of a resync only if it was syncing), once each and in order; if callbacks end and nothing new arrives, this is complete after a bounded number of steps. Notifications for all are distributed at most four ahead of the calls of any handler, so that, resyncs apart, in any span of time the numbers of calls of two handlers differ by at most eight. REFUTED: that a handler that does not return leaves the others alone (distribution is sequential and waits for it; registrations wait as well).", "quantifier": "all numbers of handlers, registered at any time, all notifications, resyncs and interleavings", "why_tests_cant": "tests have few handlers, which return at once", "anchors": ["aiok8s/cache/shared_informer.py:_SharedProcessor._distribute", "aiok8s/cache/shared_informer.py:_SharedProcessor._should_resync", "aiok8s/cache/shared_informer.py:_SharedIndexInformer.add_event_handler", "aiok8s/cache/shared_informer.py:_ProcessListener._add"]}
{"id": "C95", "title": "The delay heap, as heapq lays it out, answers as a sorted list and never compares items", "statement": "heappush and heappop, on any list in heap order whose entries have different counts, keep the heap order and the other entries; heappop answers the least entry. The list of the delay heap has the heap order at any time, although entries are marked as removed in place; its counts differ, so that no comparison reaches the items (which need not be comparable) and none raises; every sequence of calls is answered as by a sorted list, hence as by the map of C08.", "quantifier": "all orders, all lists in heap order, all sequences of insert, peek_priority, pop and len", "why_tests_cant": "the layout of a heap depends on all calls so far; a test sees a few layouts", "anchors": ["aiok8s/workqueue/delaying_queue.py:_WaitForPriorityQueue.insert", "aiok8s/workqueue/delaying_queue.py:_WaitForPriorityQueue.pop", "aiok8s/workqueue/delaying_queue.py:_WaitForPriorityQueue.peek_priority", "aiok8s/workqueue/delaying_queue.py:_WaitForPriorityQueue._remove"]}
{"id": "C96", "title": "A shared informer that is run several times still hands over each notification exactly once, but no longer one at a time", "statement": "Let run of a shared informer be called any number of times. No notification is handed to a handler more often than it was accepted for it; when nothing new happens the tasks come to rest, and without a stop each was then handed over exactly once, with its callback ended and nobody waiting to add one. At most as many callbacks of a handler run at once as run was called times. (False: that callbacks follow one another, and that the end of one run leaves the other alone; after it no notification is ever accepted again.)", "quantifier": "all numbers of runs, all interleavings of their tasks, callers and callbacks", "why_tests_cant": "the order in which competing tasks are served by two bounded queues has unboundedly many interleavings", "anchors": ["aiok8s/cache/shared_informer.py:_SharedProcessor._run", "aiok8s/cache/shared_informer.py:_ProcessListener._pop", "aiok8s/cache/shared_informer.py:_ProcessListener._run", "aiok8s/cache/shared_informer.py:_ProcessListener._add"]}
{"id": "C97", "title": "Rate limiter, jitter and backoff computed in floats keep their bounds up to explicit rounding errors", "statement": "Let every operation be rounded with relative error u (2^-53 for doubles, u at most 2^-10 assumed). With a clock that does not go back, readings up to S and no delay above W, the calls of a token bucket released between a and z number n with n*(1 - 12u(burst + 2*limit*W + 1)) <= burst + limit*(z-a) + u*(burst + 2*limit*S + 4*limit*W); each call leaves the tokens of exact arithmetic up to 12u(burst + backlog + 1). jitter(d, f) lies in [d, d*(1+f)*(1+u)^2]; the k-th step of a backoff in [d*(f*(1-u))^k, d*(f*(1+u))^k] and never above its cap; the resync period of an informer is at most a fifth of the configured one. (False in doubles: jitter stays within d*(1+f); a window has at most burst + limit*(z-a) releases; a bucket idle for long grants its whole burst at once.)", "quantifier": "all monotone idempotent roundings with a relative error, all parameters, all sequences of calls", "why_tests_cant": "rounding errors depend on all calls so far and on the numbers; tests see a few, and compare with a tolerance", "anchors": ["aiok8s/workqueue/default_rate_limiters.py:BucketRateLimiter.when", "aiok8s/workqueue/default_rate_limiters.py:BucketRateLimiter._advance", "aiok8s/util/wait.py:jitter", "aiok8s/util/wait.py:Backoff.step", "aiok8s/controller/_informers_map.py:_resync_period"]}
{"id": "C98", "title": "The store keeps and returns the objects themselves: what edits in place break and what they cannot", "statement": "Let objects be edited in place by whoever holds them, before or after they are stored. get_by_key, list and list_keys return the very objects last stored, filed under the key each had when it was stored. If since the last replace() no edit changed an index value of an object in the store (as when only copies are edited), index_keys, by_index and list_index_func_values are exact for the present contents, and add, update and delete do not fail. A key left behind in an index makes by_index raise KeyError until a replace() or until something is stored under that key. (False for arbitrary edits: after editing a label and deleting the object the store is empty and by_index of the old label raises KeyError; after editing a label to one another object has, the next update and every delete of the object raise KeyError; after editing the name, delete returns and the object stays.)", "quantifier": "all key and index functions, all histories of calls and edits", "why_tests_cant": "needs edits between calls, and which later call fails depends on the other objects stored; the tests deep-copy before they edit", "anchors": ["aiok8s/cache/thread_safe_store.py:_ThreadSafeMap.add", "aiok8s/cache/thread_safe_store.py:_ThreadSafeMap.get", "aiok8s/cache/thread_safe_store.py:_ThreadSafeMap.by_index", "aiok8s/cache/thread_safe_store.py:_ThreadSafeMap._delete_from_indices", "aiok8s/controller/_cache_reader.py:CacheReader.get"]}
{"id": "C99", "title": "A shared informer whose run is cancelled again while it waits for its processor", "statement": "Let run be cancelled a second time while it awaits the processor task. If the processor is waiting for the listeners' tasks, these are cancelled: no callback is started any more, the tasks cannot go on for ever, and when none can go on all have ended; run ends at once if some listener's task was not in a callback, and otherwise not before a callback lets the cancellation through or all callbacks are over. If the processor has not begun, no task of a listener exists and all is over. (False: in any case the listeners' tasks end and run ends after them. If the processor had not yet woken up, run ends, no listener is told to stop, and their tasks run for ever and still start callbacks; and run may end while a cancelled callback is still running.)", "quantifier": "all numbers of listeners, all schedules of their tasks, all moments of the second cancellation", "why_tests_cant": "needs a second cancellation in a window of one turn of the loop, or callbacks that take time to end; the tests cancel once", "anchors": ["aiok8s/cache/shared_informer.py:_SharedIndexInformer.run", "aiok8s/cache/shared_informer.py:_SharedProcessor._run", "aiok8s/cache/shared_informer.py:_ProcessListener._run"]}
{"id": "C100", "title": "Deltas lists passed to a DeltaFIFO", "statement": "A non-empty Deltas list stands for the key of its newest object. As long as no list was passed as an object to add, update, delete or replace (or held by the known objects), a list got from get_by_key or popped has, by key_of and get, the key it was pending under. In any case a popped list given to add_if_not_present is pending again under the key it had, unless newer changes are. A list passed to add becomes the object of one new delta. An empty list makes every call fail (StoreKeyError; AttributeError for add_if_not_present) and changes nothing that is pending. (False: a popped list has the key it was pending under, whatever was added before; and a call that fails leaves the queue as it was: after a failing add a queue that was never filled reports has_synced.)", "quantifier": "all key functions, all objects and lists, all histories of calls", "why_tests_cant": "the tests never pass a Deltas list but to add_if_not_present, and no empty one", "anchors": ["aiok8s/cache/delta_fifo.py:DeltaFIFO.key_of", "aiok8s/cache/delta_fifo.py:DeltaFIFO.add_if_not_present", "aiok8s/cache/delta_fifo.py:DeltaFIFO._queue_action_locked"]}
{"id": "C101", "title": "The lists of a DeltaFIFO are shared with its callers", "statement": "Consider the queue with its lists as Python objects that callers can change. If no list is changed while it is pending or being processed, all answers are those of a queue that copies its lists. This is so for every program that changes only lists it made or got from the queue, that it has not passed to add_if_not_present or caused to be requeued, and is not processing. After add or update of an object no list that a caller has is the one pending under its key, whatever was changed before. (False: what is pending changes by calls of the queue only. A callback that empties its list and raises RequeueError leaves an empty list pending: list fails with AttributeError and the next callback gets an empty list. A list changed after add_if_not_present stays under its old key.)", "quantifier": "all key functions, all programs interleaving calls and edits of lists, all histories", "why_tests_cant": "needs aliasing between the caller's list and the queue's; the tests never touch a list after handing it over", "anchors": ["aiok8s/cache/delta_fifo.py:DeltaFIFO._add_if_not_present", "aiok8s/cache/delta_fifo.py:DeltaFIFO.pop", "aiok8s/cache/delta_fifo.py:DeltaFIFO.get_by_key", "aiok8s/cache/delta_fifo.py:DeltaFIFO.list"]}
{"id": "C102", "title": "A lock returns the record that was written, and raw records tell records apart", "statement": "What create or update of a ConfigMapLock writes, get returns: the same record, and as raw record its text; other annotations stay. The text is printable ASCII. Two raw records written by create or update are equal exactly if the records are. Every record that get reads from a text without surrogate characters (any JSON, written by anyone) can be written and read again unchanged, so what an elector carries over from another's record is kept. This holds for all records whose strs have no high surrogate directly followed by a low one; for other strs each such pair comes back as the character it encodes. get returns None twice if there is no annotation, the empty dict twice if annotations is empty, and the empty text twice if the text is; other texts that are not JSON raise. (False: for every identity. The identity of two surrogates comes back as another identity.)", "quantifier": "all JSON values of any depth, all identities, integers and floats, all texts, all annotations", "why_tests_cant": "needs all strings, escapes and nestings; the tests use two or three ASCII records", "anchors": ["aiok8s/leaderelection/resourcelock.py:ConfigMapLock.get", "aiok8s/leaderelection/resourcelock.py:ConfigMapLock.create", "aiok8s/leaderelection/resourcelock.py:ConfigMapLock.update", "aiok8s/leaderelection/leaderelection.py:LeaderElector._try_acquire_or_renew"]}
{"id": "C103", "title": "Calls under an asyncio.Lock take effect one at a time and in order, whoever is cancelled", "statement": "Many tasks call the methods of the store or of the fake source, and any of them may be cancelled while it waits for the lock or at an await under it. The calls take effect one at a time, each as if it ran alone, in the order in which they were made. Every call is in exactly one of four places: ended, under way, waiting, gave up; only cancelled calls give up. No wakeup is lost: if the lock is free, the first waiter that was not cancelled gets it when it and those before it have run. The lock is free unless a section is under way or shutdown of the fake source took it; after that no call ever gets the lock. Calls of the store never wait and cannot be cancelled midway. What overlapping calls of the fake source do is what some calls do one after another. (False: watchers see every change that lists show; every watcher of the source is somebody's. A cancelled change is listed but not watched, and a cancelled watch leaves a watcher behind.)", "quantifier": "all objects under a lock, all numbers of tasks, all interleavings, cancellations at any await", "why_tests_cant": "needs all interleavings of tasks and cancellations; the tests call one method at a time and cancel none", "anchors": ["aiok8s/cache/thread_safe_store.py:_ThreadSafeMap.add", "aiok8s/cache/thread_safe_store.py:_ThreadSafeMap.replace", "aiok8s/cache/testing/fake_controller_source.py:FakeControllerSource.change", "aiok8s/cache/testing/fake_controller_source.py:FakeControllerSource.watch", "aiok8s/cache/testing/fake_controller_source.py:FakeControllerSource.shutdown"]}
{"id": "C104", "title": "No item is lost, doubled or stuck in the queues between the parts, whichever get and put tasks are cancelled", "statement": "The parts hand things on through asyncio queues, with get and put tasks that are cancelled when something else comes first (the listener's _pop cancels its get or its put on each round, the broadcaster its put when a watcher stops). For every queue size and every interleaving of tasks and cancellations: what is taken is what was put, in that order, nothing lost and nothing twice; a task that returns has its effect once and a task that is cancelled has none; the queue never holds more than its size. No wakeup is lost: once the event loop has nothing to run, which comes after a bounded number of runs, a get waits only if the queue is empty, a put only if it is full, a join only if task_done is owed. What returned earlier stays earlier. When a join returns, everything put before it began has been taken and reported done. (False: puts enter in the order in which they were called, so that watchers would see actions in call order; gets are served in order; a join returns with the queue empty.)", "quantifier": "all queue sizes, all numbers of tasks, all interleavings, cancellations at any moment", "why_tests_cant": "needs all interleavings of getters, putters and cancellations; lost wakeups and overtaking show only in some schedules", "anchors": ["aiok8s/cache/shared_informer.py:_ProcessListener._add", "aiok8s/cache/shared_informer.py:_ProcessListener._pop", "aiok8s/cache/shared_informer.py:_ProcessListener._run", "aiok8s/watch/mux.py:Broadcaster.action", "aiok8s/watch/mux.py:Broadcaster._distribute", "aiok8s/watch/mux.py:_BroadcasterWatcher.__anext__", "aiok8s/watch/mux.py:_BroadcasterWatcher._put"]}
{"id": "C105", "title": "Accessors read and write the metadata itself, whatever the shape of the object", "statement": "meta.accessor and meta.list_accessor return an accessor exactly for objects with metadata (an entry of a dictionary, an attribute of anything else) and raise nothing but their own error. An accessor reads what its metadata holds at the time of reading, in the spelling of the object's kind; a missing field raises KeyError, AttributeError or TypeError at that time, not when the accessor is made. Setting resource_version is read back by every accessor of the same metadata and changes nothing else; where it fails it changes nothing. set_list then extract_list give the very list back. A dictionary and a typed object with the same metadata give the same readings, the same store key and the same index value. The reflector reads of the fake source's list exactly the version and the items put there. (False: the accessor follows the object when its metadata is replaced; setting a version changes one object only; an object that has an accessor has a key; a change of the fake source that raises leaves no trace.)", "quantifier": "all heaps of objects of any shape, shared or nested at will, and all later heaps", "why_tests_cant": "needs all shapes of objects, mixed and missing parts and sharing between objects; tests use well-formed objects", "anchors": ["aiok8s/api/meta.py:accessor", "aiok8s/api/meta.py:list_accessor", "aiok8s/api/meta.py:type_accessor", "aiok8s/api/meta.py:extract_list", "aiok8s/api/meta.py:set_list", "aiok8s/api/meta.py:_Accessor", "aiok8s/api/meta.py:_UnstructuredAccessor", "aiok8s/cache/store.py:meta_namespace_key_func", "aiok8s/cache/index.py:meta_namespace_index_func", "aiok8s/cache/testing/fake_controller_source.py:FakeControllerSource.change", "aiok8s/cache/testing/fake_controller_source.py:FakeControllerSource.list"]}
{"id": "C106", "title": "The queues work on asyncio's own lock and condition, whoever is cancelled", "statement": "Tasks call the work queue, FIFO or DeltaFIFO, wait in get or pop, are notified, and are cancelled at any moment, also between notification and turn, or again while they reacquire the lock. Methods take effect one at a time, with the results and in the order of a machine where a section is one step and a cancelled waiter is gone at once. Every call ended, is inside, waits, or gave up, and only a cancelled one gives up; a call cancelled while waiting never takes effect and returns nothing. Whenever the lock is free the first task in line that was not cancelled gets it. When no task can run and no callback is under way, nobody waits for the lock; no pop of FIFO or DeltaFIFO waits while there is an item or after close, and no get of the work queue if nobody was cancelled. In the work queue and FIFO no call ever waits for the lock. (False: a get never waits while there is an item, after cancellations; a cancelled pop ends although another's callback still runs.)", "quantifier": "all objects under a condition, all numbers of tasks, and all interleavings of calls, wakeups, cancellations and ends of callbacks, of any length", "why_tests_cant": "the windows between notification, turn and reacquisition of the lock, and cancellation in each of them, cannot be hit reliably by a test", "anchors": ["aiok8s/workqueue/queue.py:Type.add", "aiok8s/workqueue/queue.py:Type.get", "aiok8s/workqueue/queue.py:Type.done", "aiok8s/workqueue/queue.py:Type.shut_down", "aiok8s/cache/fifo.py:FIFO.pop", "aiok8s/cache/fifo.py:FIFO.add", "aiok8s/cache/fifo.py:FIFO.close", "aiok8s/cache/delta_fifo.py:DeltaFIFO.pop", "aiok8s/cache/delta_fifo.py:DeltaFIFO.add", "aiok8s/cache/delta_fifo.py:DeltaFIFO.close"]}
{"id": "C107", "title": "The tasks inside a watch together do what the reflector promises", "statement": "Between two lists, a task reads the watch into a queue, one waits for the next event and one for a resync error, one resyncs, and the handler waits for whichever comes first; the reflector may be cancelled at any moment. All they do together, in whatever order the event loop runs them, is what the reflector does one event at a time: the same calls of the store and of watch in the same order, and the same last resource version. Events are looked at in the order read, each once, and another watch is opened only after all events read have been looked at. Whatever is ready can be run; if calls of the store return and streams let go, and nothing more arrives, the tasks come to rest after a bounded number of steps, with the watch over or the handler waiting. If the handler waits then, every event read was looked at, no resync error is left unseen, and the stream is being read unless it raised. The resync task goes on over all watches until one of its resyncs fails. After a resync has failed at most one more call is made before the reflector lists again, and the handler does not stay waiting. A cancelled reflector makes no further call but resyncs, and ends with the cancellation. No task outlives its watch, the resync task does not outlive list_and_watch, and a watch that is left ends once its stream lets go. (False: a watch ends when its stream raises.)", "quantifier": "all configurations, stores, streams of events, batches in which they arrive, and interleavings of the tasks with resyncs and cancellations, of any length", "why_tests_cant": "which of two tasks that end in the same round of the loop is noticed first, and what is cancelled half-way, depends on timing that tests do not control", "anchors": ["aiok8s/cache/reflector.py:Reflector.list_and_watch", "aiok8s/cache/reflector.py:Reflector._watch_handler"]}
{"id": "C108", "title": "With its queues and tasks, the reflector still applies every change exactly once", "statement": "A reflector lists, and watches with one task reading ahead into a queue while the handler applies events to the store, resyncs happen, and the reflector may be cancelled; the server changes meanwhile. Its effect on the store is that of a reflector that takes one event at a time from the stream. At every moment the store was called once for each change between the version of the last list and the last resource version, in order, over any number of watches, whatever was read ahead and dropped when a watch was left. A plain store holds exactly the server's state at the last resource version. When no task can run and the handler waits, everything delivered so far has been applied, and unless the watch ends this comes about after a bounded number of steps if nothing more arrives; so if the stream has delivered all changes the store equals the server's present state.", "quantifier": "all configurations, stores and key functions, all sequences of changes, lists, batches, bookmarks, resyncs and cancellations, and all interleavings of the tasks, of any length", "why_tests_cant": "events lost or repeated between queue, handler and the next watch show only under particular interleavings of reading, handling and closing", "anchors": ["aiok8s/cache/reflector.py:Reflector.run", "aiok8s/cache/reflector.py:Reflector.list_and_watch", "aiok8s/cache/reflector.py:Reflector._watch_handler"]}
