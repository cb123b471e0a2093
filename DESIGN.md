# Design

Formal model of `aiok8s` (the pinned source in /repo) in Rocq / Coq 8.16.1, and machine-checked proofs
of the properties in properties.jsonl. Everything is in `rocq/theories`; MANIFEST.json maps each
property to its theorems.

## Method

* Python functions are modelled as total Gallina functions, branch by branch; exceptions are result
  values. Each definition cites file and lines; each `*_model.v` begins with its simplifications.
* Coroutines run atomically between `await`s that can really suspend. An `asyncio.Lock` or `Condition`
  suspends its users only where a holder is itself suspended while holding it (`DeltaFIFO.pop` during
  the process callback, `FakeWatcher.action` in `join`, the broadcaster while distributing in waiting mode,
  the shared informer's locks during a distribution); elsewhere lock-protected methods are single steps
  (C103 and C106 prove this for the store, the fake source and the three queues).
  Where the interleaving matters the model is a labelled transition system with program counters, and
  theorems quantify over all its finite executions, or, for C64, C71 and C75, all infinite fair ones.
* No bound is put on the number of tasks, objects, calls or steps.
* Properties are stated over *histories* (lists of calls with their results, or of transition labels) or on
  abstract specifications (maps, lists), in `*_spec.v`.
* A claim that is false of the model is stated as `…_refuted : exists …` with a concrete witness, next
  to the strongest true variant found.
* Theorems were tested by editing the model like a realistic bug and rebuilding (seeded/LOG.jsonl). `failed` there lists the theorems whose proof, as written, no longer goes through, directly or by way of a lemma; it does not show that each of them has become false.

## Layout (rocq/theories)

`Base.v` (Python containers, histories, transition systems), and per component `X_model.v` (the code),
`X_spec.v` (independent specification), `X_proofs*.v` (lemmas), `X_props.v` (the theorems named after the
properties, with concrete cases meeting their hypotheses, and `Print Assumptions`).

## Trusted base

* The Coq 8.16.1 kernel (and, for `vm_compute` in concrete cases, its virtual machine).
* `Print Assumptions` answers "Closed under the global context" for every theorem in every `*_props.v`: no
  axiom is used, neither of ours nor of a library.
* Libraries: the Coq standard library and std++ (lists, tactics; some files load ssreflect). Loading
  std++ brings in the library module `Coq.ssr.ssrunder`, whose `Under_rel.*` constants a whole-context check
  lists as library axioms; no theorem depends on them.
* That the model is the code. The correspondence was made by reading /repo as text; the code was not run.

What is assumed about the platform, beyond the citations in the files:

* CPython 3.8 or later: insertion-ordered dicts; `CancelledError` is not a subclass of `Exception` (before 3.8 it is: C89).
* asyncio of CPython 3.7-3.12: one task runs at a time; `Condition.notify` wakes the first waiters, and a
  notified task that is cancelled passes nothing on; `Queue.get`/`put` that are cancelled before completing have no effect;
  `gather` cancels its unended children when it is cancelled, and ends with the first child that does not return;
  for Manager_model, Mux_model, Listener_model and Watch_model, new tasks run in the order of their creation.
* `heapq` is the one of CPython (C95 shows that it gives the least element); `random.random()` is any number in [0, 1).
* The API server, for C39 and C42: changes are numbered, a list answers the state at a version, and a watch from a version
  delivers the later changes in order, possibly ending at any point.
* Times, durations and rates are integers or exact rationals: rounding of doubles, infinities and nans
  are not modelled, except for the overflow of `2**n` in the exponential limiter, the rounding in the watch timeout (C85)
  and that of the token bucket, jitter, backoff and resync period (C97, without limits on exponents).

## What is modelled

| source (aiok8s/) | model | not modelled |
|---|---|---|
| workqueue/queue.py | WorkQueue, WorkQueueSched, AsyncCond for the lock and the condition | |
| workqueue/delaying_queue.py | WaitPQ, Heap, DelayQueue | |
| workqueue/default_rate_limiters.py, rate_limiting_queue.py | RateLimit, Rounded; Controller | |
| cache/fifo.py | Fifo, FifoSched, AsyncCond for the lock and the condition | |
| cache/delta_fifo.py | DeltaFifo, DeltaFifoSched, DeltaArg, DeltaRef, AsyncCond for the lock and the condition | |
| cache/store.py, thread_safe_store.py, index.py | Store, KeyFunc, NsIndex, Alias, AsyncLock for the lock | |
| cache/reflector.py | Reflector, World, Request, Resync, Pace, WatchLoop and WatchFeed for the tasks inside a watch | logging |
| cache/controller.py | Informer, InformerWorld | |
| cache/shared_informer.py | SharedInformer, Listener, ListenerTime, Informer, InformerStop, InformerAgain, Fanout, ManyRuns, AsyncQueue for the queues | |
| cache/testing/fake_controller_source.py | FakeSource, AsyncLock for overlapping calls and shutdown | which changes a watch probability between 0 and 1 hides (any may be) |
| watch/mux.py, watch/watch.py | Mux, Watch, AsyncQueue for the queues | |
| util/wait.py, util/clock.py, util/_time.py | Wait, Clock, RealTime, Rounded | |
| leaderelection/*.py | LeaderElection; RecordText for the text of records | float arithmetic and repr, limits of the json package; logging |
| controller/controller.py, reconcile.py | Controller, Manager, PyOld, Inject, Twice | |
| controller/handler.py, source.py, event.py | Source, Manager | |
| controller/manager.py, builder.py | Manager, ManagerStop, Inject | |
| controller/cache.py, _deleg_map.py, _informers_map.py, _cache_reader.py | InformersMap, KeyFunc, Request | |
| controller/client.py, cache/list_watch.py | Client, Request | constructors of the client classes |
| cache/, workqueue/ and controller/ together, from the server to a reconciler | System, SystemWait | the informer waiting for the listeners of other handlers than the one considered (Fanout has all listeners, without the rest) |
| example.py (top level) | Example | loading of the configuration, signals |
| api/meta.py | KeyFunc, Source, Meta | checks of assignments in the generated client classes; numbers as field values |
| util/retry.py (one constant), cache/fake_custom_store.py, cache/testing/util.py, runtime/schema.py, setup.py | (none) | delegation, test helpers, `__str__`, scripts |

Logging is left out everywhere.

## Status in MANIFEST.json

* `proved`: what the statement says is proved. Where the statement itself says that a claim is REFUTED,
  the refutation is what is proved, and the note begins with REFUTED.
* `partial`: the statement as written turned out false of the model in a case it does not exclude; the note begins
  with FALSE AS WRITTEN, names the counterexample theorem and says what is proved instead.

## Properties

For each property: what is modelled and how it is proved. The exact theorems are in MANIFEST.json.

* **C01 Work queue never hands out an item twice concurrently** (proved) - WorkQueue_model: one step per call of add/get/done/shut_down; the statement is about histories of calls and answers. Invariant (dirty, queue and processing fit together) by induction on histories. WorkQueueSched_model adds the tasks blocked in get; every schedule of them is shown to be such a history.
* **C02 Work queue never loses an accepted add** (proved) - WorkQueue: an item owed to the consumers is in dirty, and in the deque unless being processed; the gets drain the deque position by position.
* **C03 Work queue coalesces adds and invents nothing** (proved) - WorkQueue: ghost-free trace induction on (dirty ⇔ added since last delivery).
* **C04 Work queue is first-in first-out in order of becoming ready** (proved) - WorkQueue: position argument on the deque, trace statement.
* **C05 Work queue shutdown drains and then terminates consumers** (proved) - WorkQueue: what remains after shut_down is delivered at most once, then get answers shutdown.
* **C06 No lost wake-up for blocked consumers** (proved) - WorkQueueSched: labelled transition system with a pool of getter tasks (pcs: Idle/Waiting/Notified/Done) and asyncio.Condition's FIFO waiter list; inductive invariant; refutation by a concrete cancel schedule.
* **C07 len() counts exactly the ready items, done() of an item not being processed raises and changes nothing** (proved) - WorkQueue: len against the number of successful gets that can follow; done of an item not being processed.
* **C08 Delay heap behaves as an earliest-deadline map** (proved) - WaitPQ_model: heapq (standard library) is a list kept sorted by (deadline, count), which gives the same answers since counts are unique; the lazy deletion of the code is modelled on top; refinement to a map from items to deadlines.
* **C09 add_after never delivers early** (proved) - DelayQueue_model: transition system of clock, callers, the bounded queue, one helper task per pending put and the loop; every tracked deadline comes from a call of add_after in the history.
* **C10 add_after is never forgotten and is delivered as soon as the loop runs after the deadline** (proved) - DelayQueue: invariant that a deadline is in one of the stages before the queue, and a bounded number of steps of the loop until it is delivered.
* **C11 shut_down of a delaying or rate limited queue stops consumers and producers** (proved) - DelayQueue: the refutation follows the self-recursive shut_down; the actual behaviour is proved for all runs.
* **C12 Duplicate delayed adds coalesce to the earliest deadline** (proved) - DelayQueue and WaitPQ: at most one deadline per item, and insertion keeps the earlier one.
* **C13 Exponential limiter: delay is base*2^n capped, per item, reset by forget** (proved) - RateLimit_model: delays are exact rationals (multiplying a double by a power of two is exact), the float range is the 1024 bound on the exponent.
* **C14 Exponential limiter never fails, however many failures** (proved) - RateLimit: the exact condition under which the limiter raises, and the default limiter as witness.
* **C15 Token bucket conformance** (proved) - RateLimit over Q: virtual-time argument (last time minus tokens over rate never goes back and advances by 1/rate per grant); float rounding is not modelled.
* **C16 Token bucket grants immediately when tokens are available and never over-delays** (proved) - RateLimit over Q: the least time at which conformance allows the next grant.
* **C17 Combined limiter takes the worst delay and feeds every limiter** (proved) - RateLimit: list of arbitrary limiters, which may raise.
* **C18 FIFO delivers each stored object once with its latest value and never loses one** (proved) - Fifo_model: one step per call; the specification is a map and an order of keys computed from the history.
* **C19 FIFO deleted objects are not delivered** (proved) - Fifo: same histories.
* **C20 FIFO has_synced means the first batch was popped** (proved) - Fifo: counting invariant over the first batch; refutation by witness.
* **C21 FIFO resync never changes content or order** (proved) - Fifo: from the invariant items ⊆ queue.
* **C22 FIFO processing errors: requeue on request, error otherwise** (partial) - Fifo: pop takes the outcome of the callback as an argument, so theorems hold for any callback.
* **C23 Closing a FIFO/DeltaFIFO drains then fails pops** (proved) - Fifo and DeltaFifo for the answers; FifoSched and DeltaFifoSched (tasks blocked in pop, notify_all, cancellation) for the wake-ups.
* **C24 DeltaFIFO delivers every change of a key, once, in order** (proved) - DeltaFifo: ghost-free trace statement: per-key log of accepted deltas computed from the history by an independent spec function.
* **C25 DeltaFIFO pending lists are non-empty, without adjacent deletions, and end in the last change** (proved) - DeltaFifo: state invariant.
* **C26 DeltaFIFO keys are served first-in first-out** (proved) - DeltaFifo: position argument on the queue of keys, trace statement.
* **C27 DeltaFIFO has_synced is exact for the first replace** (partial) - DeltaFifo: the queue is an initial part of the first batch and later keys; counting; witnesses for the limits.
* **C28 Replace announces every disappearance** (proved) - DeltaFifo.replace: pending lists after replace from those before.
* **C29 After replace(list) and a drain the cache equals the list** (proved) - Informer_model (DeltaFifo, client store and process loop): content after replace and drain, exact, from the pending deltas and the content before.
* **C30 Resync re-announces every quiet known object and only those** (proved) - DeltaFifo.resync for the queue; Informer for the effect on the store.
* **C31 DeltaFIFO processing errors** (proved) - DeltaFifo: pop is split at the await of the callback, so calls during it are covered.
* **C32 Store is a map from key to the last stored object** (proved) - Store_model: refinement to a finite map.
* **C33 Secondary indices agree with content** (proved) - Store: every index is exactly the index function applied to the content; sets up to order.
* **C34 Index functions may return repeated values** (proved) - Store: witness.
* **C35 add_indexers accepts new non-conflicting indexers on an empty store** (proved) - Store: add_indexers succeeds exactly when store, old and new index functions are all empty; witness.
* **C36 Object keys are unambiguous and the reader uses the same key** (proved) - KeyFunc_model over Coq strings, for attribute objects and dictionaries.
* **C37 Reflector resumes each watch exactly after the last event it applied** (proved) - Reflector_model: a machine driven by the answers of lister and watcher, events, ends of streams, timers; histories of inputs with the calls made for each.
* **C38 Reflector applies exactly the understood events, in order** (proved) - Reflector: one event at a time, against an independent condition for being understood.
* **C39 Reflector store mirrors the server at its last synced version** (proved) - World_model: a server with a log of changes, a watch that delivers the log from a version on; simulation invariant between the reflected store and the server state.
* **C40 Any failure of a watch leads to a new list** (proved) - Reflector: theorems for each way a watch can end, over all histories; a stream that raises leads to a state that no input leaves.
* **C41 Group/version/kind filtering works for every API group** (proved) - Reflector with the group/version/kind accessor of KeyFunc_model.
* **C42 Informer cache converges to the server state** (partial) - InformerWorld_model: World, Reflector, DeltaFifo, client store and process loop in one transition system with failing handlers; invariant per key: the content the key will have when what is pending for it is processed is the server state.
* **C43 Handler callbacks form a consistent life cycle per object** (proved) - Informer: automaton over the callbacks of a key.
* **C44 A failing handler does not corrupt the informer cache** (proved) - Informer: exact effect of a failing callback on every key, and a witness.
* **C45 Each shared-informer handler gets its notifications once, in order** (proved) - Listener_model: the tasks _add, _pop and _run between two asyncio queues of size one.
* **C46 A slow handler does not stall the informer** (proved) - Listener: at most two notifications are accepted ahead of the handler; witness of the stall.
* **C47 A handler added late sees every cached object and everything after** (proved) - SharedInformer_model: replay of the notifications of a handler against the cache.
* **C48 Objects discovered by a relist are announced to every handler** (proved) - SharedInformer: the handlers that are told, and a witness.
* **C49 Resync periods are honoured** (proved) - SharedInformer: resync periods and the times of the checks, integers.
* **C50 has_synced implies the initial list is in the cache** (partial) - Informer: every object of the first list is pending, being popped or delivered; with the counting invariant of C27.
* **C51 Backoff steps follow duration*factor^k up to the cap** (proved) - Wait_model: Backoff.step over Q.
* **C52 exponential_backoff calls the condition at most steps times and its outcome is the condition's** (proved) - Wait: the calls and sleeps of exponential_backoff as a function of the answers and random values.
* **C53 jitter stays within bounds** (partial) - Wait: Q, the random value is a parameter.
* **C54 Fake timers fire exactly once, at the first step reaching their time** (proved) - Clock_model (fake clock): one step per call.
* **C55 Fake tickers tick at multiples of their period and never block** (partial) - Clock: histories of steps, timers and tickers.
* **C56 Broadcaster delivers every event to every watcher in order (waiting mode)** (proved) - Mux_model: distributor task, submitters, watchers with their queues, cancellation.
* **C57 Broadcaster in drop mode drops only when the watcher's buffer is full** (proved) - Mux: per watcher, the events seen and the moments when its buffer was full.
* **C58 Broadcaster shutdown** (proved) - Mux: what calls do once the loop ended.
* **C59 Leader elector accepts only consistent timing configurations** (proved) - LeaderElection_model: configuration over Q.
* **C60 At most one elector leads at a time** (proved) - LeaderElection_model: any number of electors and a server with one config map; writes are handled and answered at different moments, may be lost or handled late.
* **C61 A healthy leader keeps its lease** (proved) - LeaderElection: attributes that are never set raise when read, as in Python; refutation by a run, and theorems that the failure is inevitable.
* **C62 Reconciler is never run concurrently for the same request** (proved) - Controller_model: any number of workers over the delaying queue and the rate limiter, with cancellation.
* **C63 Outcome table of a reconcile** (proved) - Controller: one worker transition per outcome; the failure count is computed from the trace; witness with 1025 failures.
* **C64 Every observed change is followed by a later reconcile** (proved) - Controller (safety and possibility) and Controller_live (infinite runs; fairness: every worker that has not ended moves again, and one is never cancelled). Source_model turns notifications into requests.
* **C65 Deletions observed only through a relist trigger a reconcile** (proved) - Source_model over KeyFunc objects: handler for tombstones; composition with the informer.
* **C66 Predicates gate events conjunctively** (proved) - Source: predicates are arbitrary, may answer true, false or raise.
* **C67 One informer per kind; informers requested after start** (proved) - InformersMap_model: get, start and the informers as tasks.
* **C68 Resync period jitter is around the configured period** (proved) - InformersMap: _resync_period over Q.
* **C69 Fake source: list then watch from its version misses nothing** (partial) - FakeSource_model: objects by reference with their versions, broadcasts by reference, copies for the backlog.
* **C70 Client registry is one-to-one** (partial) - Client_model: sequences of class definitions, including failing ones.
* **C71 Manager starts each runnable once after the caches synced** (proved) - Manager_model on top of InformersMap; Manager_live for infinite fair runs.
* **C72 poll waits an interval before each call and its outcome is the condition's** (proved) - Wait: poll as relations over the calls of the condition with their times and answers.
* **C73 jitter_until calls are a period apart and stop with the event** (proved) - Wait: jitter_until as a transition system with a clock and the stop event.
* **C74 Cache reads only see synced informers** (proved) - InformersMap: wait_for_cache_sync and the synced state of informers.
* **C75 Controllers of a started manager come up** (proved) - Manager_model and Manager_live; fairness is stated per agent: nobody who is able to go on again and again is passed over for ever (this includes that the first list of an informer is answered some time).
* **C76 Fake watcher hands every event to its reader once and in order** (proved) - Watch_model: any number of readers, action, stop and reset with asyncio.Queue and its join counter; traces.
* **C77 A timer fires once, a ticker keeps its period and drops what nobody reads** (proved) - RealTime_model: the task of a timer or ticker between two suspensions, with an event-loop clock that may wake it arbitrarily late; traces, with the wake times and the queue computed from the trace alone.
* **C78 The namespace index lists exactly the objects of a namespace** (proved) - NsIndex_model: meta_namespace_index_func over the objects of KeyFunc_model, in Store_model. Index functions that fail only on objects that are never stored are simulated by total ones, so that C33 applies.
* **C79 A controller ends up having reconciled the last state of every object** (proved) - System_model: the models of C42, C48, C56, C64 and C68 side by side, connected by the handler's log, its listener and the handler's calls of add. An invariant says where the news of the last change is: cache and log agree or a notification, a call or a dirty request is under way, or a worker took the request since.
* **C80 Under fair scheduling the controller converges to the server's state** (proved) - The system of C79 over infinite runs. Fairness is one condition per task: it goes on again and again, or at times it cannot. A ranking function over the listener shows that the next notification reaches the handler; another one, over the changes not yet read and the deltas not yet processed, that the informer catches up with a server at rest.
* **C81 Delayed and failed requests come back until their reconcile succeeds** (proved) - The delaying queue and the workers over infinite runs (DelayQueue_live_spec, Controller_retry_spec). Each entry is followed from put task to channel to heap to ready queue; the loop's program counter is the ranking function, the invariant of DelayQueue_proofs says that the armed timer is the least entry. The bound on failures is the number of counted failures left before 1024.
* **C82 What ends with the manager's start** (proved) - The tree of tasks under manager.start (ManagerStop_model): a state machine with asyncio's gather, each task asked to stop or not, and ending by itself in any way. An invariant says that an ended gather has asked, or was ended by, its children; a weight bounds the steps after the cancellation. Refutations are computed runs with an invariant of what follows.
* **C83 A shared informer that is cancelled ends with all its tasks** (proved) - run, the reflector's and the processor's task, the listeners' tasks and the calls of add_event_handler with the three locks (InformerStop_model, on Listener_model). Invariants give each lock one holder and say what each phase has already stopped; a weight falls with every step after the cancellation; a state in which nothing can go on has nothing left. The callback's listener keeps the processor, hence run, from ending.
* **C84 The last thing example.py prints about a pod is the server's state** (proved) - example.py's reconciler in the system of C80 (Example_model): what it prints is what it reads from the cache while a worker runs it, and it returns Result(). From C80's convergence, the take of the request after the cache's last change, and that this worker prints before it returns. Refuted with two pods of one name in two namespaces.
* **C85 An informer asks for its kind and its namespace only, from the version it has** (proved) - Request_model: _create_structured_list_watch, _get_kwargs, the clients' listers and watchers and the reflector's options around Reflector_model and Client_model, as one machine; the float sum and product of the timeout are integers with rounding to 53 bits. Both parts of a history are histories of the two models, so C37 and C70 apply.
* **C86 Resync checks come a resync period apart** (proved) - Resync_model: the reflector's resync task over the timers of C77, with the loop's clock; an invariant relates the armed timer to the last check and the last list. The bound for handlers is an induction over the check times on top of C49.
* **C87 No call of a queue is forgotten** (proved) - Over the schedules of C06, C23 and C10: an invariant relates the tasks named by the labels to those suspended in the state, as permutations; the last part lets the ready tasks run one after another (induction on their number).
* **C88 A reflector does not flood the API server** (proved) - Pace_model: the reflector of C39 with the event loop's clock (pauses) and time.time() (watch durations), recording when each list and watch is requested. Invariants relate the pause's deadline to the last list and the watch's start to the last watch; the numbers are bounded by a potential (watches minus lists minus accepted events); the refutation is an induction building the run.
* **C89 A worker that is cancelled takes no further request** (proved) - PyOld_model: the workers of Controller_model and the task tree of ManagerStop_model with the cancellation of Python before 3.8. Invariant of a worker that has to end; the refutations are runs, built by induction on the number of cancellations.
* **C90 A handler that raises pauses its listener for a minute** (proved) - ListenerTime_model: Listener_model with the event loop's clock and the deadline of the pause. Invariants: a paused listener stays so until its deadline; a potential for the number of raises; the notifications in flight number four at most (from the flow invariant of C45). The refutation is a run with two pauses after the stop request.
* **C91 A started controller watches all its sources through its manager's cache** (proved) - Inject_model: managers, controllers with their watches, mutex and starts, and Kinds with the cache they were given. Invariants over histories: records agree with the history, the cache is that of the first watch, the watches stay while a start holds the mutex. The refutations are runs.
* **C92 An informer that waits for its handler's listener stays close to the handler and still converges** (proved) - SystemWait_model: the system of C79 whose process loop waits until the listener's _add returned. The bound is an invariant over the listener; C92_fair shows by the progress of the listener (C80) that the wait ends, so that justness of the waiting system is justness of the other, and the conclusions of C80 follow.
* **C93 What a controller does that is started more than once** (proved) - Twice_model: any number of starts, each replacing self.queue, and workers that read it anew for get and done. One invariant: the reconciles of a request that run, and the workers it ended by a KeyError, are together the queues that have it in processing. The refutations are runs.
* **C94 All handlers of a shared informer are given everything, in step with each other** (proved) - Fanout_model: any number of listeners (those of Listener_model) and the list of calls of _add that the holder of _block_deltas has still to make. The run of each listener is a run of Listener_model, so its lemmas apply; an invariant says that what a handler is to be given is what its listener accepted and what is left of the calls.
* **C95 The delay heap, as heapq lays it out, answers as a sorted list and never compares items** (proved) - Heap_model: heappush and heappop of CPython's heapq with their sift loops, comparisons that may raise, and the delay heap over them. The sift loops keep a list that is in heap order but for one position; simulation by the sorted list of WaitPQ_model.
* **C96 A shared informer that is run several times still hands over each notification exactly once, but no longer one at a time** (proved) - ManyRuns_model: any number of _pop and _run tasks on the queues of one listener. For any weight of notifications, the weight accepted is that handed over plus that inside; with indicator weights that counts each notification. A measure bounds the steps; at rest an invariant ties pending notifications to a pump that will fetch them.
* **C97 Rate limiter, jitter and backoff computed in floats keep their bounds up to explicit rounding errors** (proved) - Rounded_model: the functions of RateLimit, Wait and InformersMap with a rounding after each operation, and the rounding of binary64 with unbounded exponents. Rounded_double shows it monotone, idempotent and of relative error 2^-53; Rounded_proofs uses only that. Conformance: the level last*limit - tokens grows by 1 - eps per call.
* **C98 The store keeps and returns the objects themselves: what edits in place break and what they cannot** (proved) - Alias_model: the calls of Store_model over references, with the key and index functions reading a heap that anyone may edit. The invariants of Store_proofs are applied to the functions composed with the current heap; an edit keeps them if it changes no index value of a stored object.
* **C99 A shared informer whose run is cancelled again while it waits for its processor** (proved) - InformerAgain_model adds to InformerStop the cancellation of the processor task where it is, of the gathered tasks, and callbacks the cancellation is thrown into. Invariants by the place it met; a measure for the tasks that were cancelled.
* **C100 Deltas lists passed to a DeltaFIFO** (proved) - DeltaArg_model instantiates DeltaFifo with objects that may be Deltas lists and the key function key_of computes for them. A run without such objects is one under the key function that rejects lists, whose invariant gives the key.
* **C101 The lists of a DeltaFIFO are shared with its callers** (proved) - DeltaRef_model keeps the lists in a heap, with sharing as in the code. Simulation by DeltaFifo; invariant: a pending list the program has is one it handed in, and is unique otherwise.
* **C102 A lock returns the record that was written, and raw records tell records apart** (proved) - RecordText_model is an executable json.dumps/json.loads over code points, following the json package function by function, and ConfigMapLock.get/create/update on the annotation text. Round trip by induction on the length of the text; plainness of what loads returns by induction on the scanner.
* **C103 Calls under an asyncio.Lock take effect one at a time and in order, whoever is cancelled** (proved) - AsyncLock_model is the asyncio.Lock of CPython 3.8-3.12 around any object whose methods are sequences of parts without awaits; labels are calls, runs of waiters, cancellations, and ends of what a section awaits. One invariant on waiters and futures; simulation of each section by its run alone; instances for the store and the fake source, whose sections are shown to be the steps of Store_model and FakeSource_model.
* **C104 No item is lost, doubled or stuck in the queues between the parts, whichever get and put tasks are cancelled** (proved) - AsyncQueue_model is asyncio.Queue of CPython 3.8-3.12 with its lists of futures; labels make a task, run it, cancel it, or call task_done. One invariant: who is in which list, how many wakeups are under way against how many items or free places there are, and what was put and taken by whom; a weight that each run lowers; for join, an invariant from the moment it began.
* **C105 Accessors read and write the metadata itself, whatever the shape of the object** (proved) - Meta_model has api/meta.py on a heap of objects with Python's KeyError, AttributeError and TypeError; each reader is characterised by what the heap holds, the setters by what all accessors read afterwards, and the key function is shown to be that of KeyFunc_model on the objects that model has.
* **C106 The queues work on asyncio's own lock and condition, whoever is cancelled** (proved) - AsyncCond_model has the waiter lists of asyncio.Lock and asyncio.Condition with their futures, and tasks that acquire, wait, are notified and are cancelled at any point; a simulation shows that this behaves as an ideal machine with the same results in the same order, and that machine, for each queue, as the scheduling model used elsewhere (WorkQueueSched, FifoSched, DeltaFifoSched), whose theorems thereby hold for the asyncio primitives themselves.
* **C107 The tasks inside a watch together do what the reflector promises** (proved) - WatchLoop_model has the loop's FIFO of ready callbacks, the task reading the stream, the two get tasks with their futures, asyncio.wait with its callbacks, the resync task's calls, and cancellation at any point; an invariant and a simulation show that it does what Reflector_model does for some inputs; the order of events follows from the queue; a weight shows that the loop comes to rest; a potential bounds the calls after a failed resync.
* **C108 With its queues and tasks, the reflector still applies every change exactly once** (proved) - WatchFeed_model connects the tasks of WatchLoop_model to a server: lists at any version, streams that deliver the changes in order in batches of any size with bookmarks and unaccepted events in between. An invariant relates the events read but not yet handled to the changes after the last version, and every step of the loop to at most one step of World_model, so that C37 and C39 carry over.

## Defects found in the code

Each has a theorem with a concrete run (or a theorem for all runs).

* `shut_down` of a delaying queue calls itself instead of the base class, so the queue never shuts down and what was
  delayed is stranded (C11).
* The default rate limiter raises OverflowError after 1024 failures, and the controller then drops the request
  (C14, C63).
* A notified consumer that is cancelled loses the wake-up for the others (C06).
* `has_synced` can stay false on a drained queue (C20, C27: a second replace, a key listed twice), and can be true before the first
  list is in the cache (C27, C50: after a failed replace, or while an item is processed).
* Deletions: a deletion dropped by a failing handler, or announced only by a relist, is lost to the cache or to the
  controller (C42, C44, C65).
* An index function that repeats a value breaks updates (C34); `add_indexers` never accepts anything (C35).
* An ExplicitKey put in an informer's store raises, but stays there, in no index and undeletable (C78).
* A watch stream that raises hangs the reflector (C40); an unstructured event of the core group (`apiVersion: v1`) ends the watch (C41).
* A handler that is slow stalls the informer (C46); a caller of `_add` after the stop waits for ever (C45).
* Objects found by a relist are only announced to handlers that are resyncing (C48).
* `poll` turns a TimeoutError of the condition into its own (C72); `exponential_backoff` may sleep before giving up, and does not end for
  negative steps (C52).
* Fake tickers cannot be stopped and hang for negative periods (C55); a cancelled reader of a broadcaster or a fake watcher loses
  events (C56, C76); calls after the broadcaster's shutdown are swallowed or hang (C58).
* The leader elector never renews or takes over a lease, and always ends with an exception (C60, C61).
* An informer requested after the start is never run, and `get` for it hangs (C67, C75); the resync period is below
  18 percent of the configured one (C68); a second start breaks the caches and the manager (C71, C74).
* Cancelled while it waits for the cache to sync, the manager leaves its informers running; a controller that fails ends the manager and
  leaves everything else running (C82).
* Cancelled twice, an informer may leave the tasks of its processor and listeners running for ever; a callback that awaits
  `add_event_handler` may never return (C83).
* The example prints a deleted pod's name in place of its namespace (C84).
* A client class definition that fails takes its kind all the same (C70).
* Every list starts the resync period anew: a reflector whose watches fail more often than that never resyncs (C86).
* A server that ends every watch after one event is asked for the next at once, without a pause (C88).
* A handler that raises holds its listener, and with it the whole informer, for a minute each time; a stop request does not shorten the pause (C90).
* A watch made on a controller that was started is kept and never started (C91).
* On Python 3.6 and 3.7, a worker that is cancelled while it reconciles goes on, also after the manager's start has ended (C89).
* A second start of a controller (or of its manager) replaces the queue its workers release their requests to: the same request is reconciled twice at a time,
  workers are ended by a KeyError, and what the first queue holds is lost (C93).
* A handler that does not return stops the distribution to all handlers of the informer, and registrations with it; in client-go a slow handler has an unbounded buffer
  of its own (C94).
* Calling `run` of a shared informer twice is not detected; callbacks of one handler then overlap, and the end of one run stops the listeners of the other, whose next `_add` never returns (C96).
* In doubles a token bucket that was idle for long may withhold the last call of its burst for an instant: 15 calls at once of BucketRateLimiter(13, 15) (C97).
* Readers and handlers get the objects of the cache, not copies. Editing one in place can make `by_index` raise KeyError for ever, make the next update of the object raise inside the informer, or make it undeletable (C98).
* A second cancellation of a shared informer's run, at the right moment, leaves its listeners running for ever (C99).
* An add of an empty Deltas list fails, and makes a DeltaFIFO that was never filled report has_synced (C100).
* A process callback that empties its list before a RequeueError makes list of the DeltaFIFO fail (C101).
* `FakeControllerSource.change` with an object that lacks an uid (or a dictionary that lacks a namespace) raises, but the change is already on record: later watches replay an object that no list shows (C105).
* Cancelling a worker in `DeltaFIFO.pop` does not end it while another worker's callback runs: it must reacquire the lock first (C106).
