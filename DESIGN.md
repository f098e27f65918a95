# Formal model of katono/cppelib in Rocq (Coq 8.16.1)

The model lives in `rocq/theories`. Only the standard library is used; no axioms are added.

    Base/       Z-indexed list lemmas
    Spec/       small specifications, independent of the models (bounded sequence, linearizability, resources, ...)
    Container/  FixedVector/PreallocatedVector, FixedDeque/PreallocatedDeque, IntrusiveList, BitPattern, Array
    Assertion/  Assertion.h message formatting and dispatch
    OS/         EventFlag, Mutex, LockGuard, MessageQueue, Thread, timers, ThreadPool, priorities, facades, uITRON and other platforms
    Props/      the property theorems only: each closed by `exact lemma`, followed by Print Assumptions,
                with Examples showing that a concrete case meets the hypotheses

Theorem names start with the property (`c33_...`). Suffixes: `_refuted` = the English property is false of the code and the theorem is
the negation of its formal statement, with a concrete witness inside the proof; `_partial` = proved under a restriction that the
property does not have (the comment above it and the note in MANIFEST.json say which).

`properties.jsonl` is written by `tools/gen_properties.py`, `MANIFEST.json` by `tools/gen_manifest.py`; `tools/mutate.py` runs seeded
bugs and appends to `seeded/LOG.jsonl`.

## Modelling conventions

* Sequential container code runs in a state monad with outcomes `Ok a s`, `Thr e s` (a C++ exception), `AssertFail s` (DEBUG_ASSERT
  fired), `UB` (undefined behaviour) and `Diverge` (loop fuel exhausted). Theorems claim a definite outcome, so neither UB nor Diverge
  can hide in them.
* Element memory is `Z -> option V`: `None` is raw storage, `Some v` a live element. Constructing over a live element, assigning to /
  reading / destroying raw storage, or any access outside the buffer is `UB`.
* An element operation (copy construction or assignment) may throw: the state carries a fuse, `None` = nothing throws, `Some k` = the
  k-th element operation from now throws. A throwing assignment leaves its target live with an arbitrary value (`torn`). Destructors
  do not throw.
* `const T&` arguments are either outside values or references to a slot of the container (aliasing).
* `std::size_t` arithmetic is explicit `mod 2^64` wherever the code can wrap; `int` overflow is undefined behaviour.
* Iterators of the vector are element indices (integers); pointer arithmetic outside the array object, strictly UB in C++ even without
  dereference, is treated as integer arithmetic (noted at each use).
* Concurrent code is an executable transition function `step : state -> label -> option (state * events)`; labels name the agent and,
  for nondeterminism, the choice (time-out, spurious wake-up, failure, ...). `exec step init ls` runs the schedule `ls`; theorems
  quantify over all `ls`, unboundedly many threads and all values. Events are `Call t c`, `Eff t c r` (the linearization point) and
  `Ret t r`; `history` keeps calls and returns. `linearizable spec init h` (Spec/Linear) says that effects can be placed between the
  call and the return of each operation of `h` so that they follow the sequential specification.
* Liveness is stated in two halves: (1) when no step is possible, every agent is idle or waits for what the property allows; (2) the
  number of steps without new calls (or task ends) is bounded by an explicit number. Together: under any scheduler that keeps running
  enabled steps, calls return. Real time is not modelled (except in C66, C67): a time-out may strike at any moment at which the code's wait could time out.
* Layers are used through their specifications: MessageQueue uses Mutex and EventFlag as the atomic objects proved of the StdCpp
  implementations; ThreadPool uses MessageQueue, EventFlag and Thread likewise.  C74 and C76-C81 remove these interfaces again: there
  the layers run together, each step of each object interleaved with all others (C79 the whole StdCpp stack, C81 the whole Itron one).

## Property by property

| id | model | proof |
|----|-------|-------|
| C01 C02 C03 | Container/Vector*: every member function, loop by loop, over element memory | representation invariant, loop invariants, refinement to Spec/SeqSpec over arbitrary histories |
| C04 | same, with the fuse lit | the same triples carry an exceptional postcondition: the representation invariant holds for some contents |
| C05 | constructors of FixedVector/FixedDeque with the fuse | `_refuted`: no handler destroys the built prefix |
| C06 | `ref` argument pointing to an own slot | push_back, resize proved; insert(pos, n, v[i]): iff theorem (right exactly when i < pos+n or v[i-n] = v[i]) and `_refuted` case |
| C07 | `dbg = true`, arbitrary integer iterators | every call on a valid state ends Ok/Thr/AssertFail, and AssertFail leaves the state unchanged |
| C08 | at() | direct |
| C09 C17 | Preallocated containers: capacity from bytes, init once | instance of the Fixed proofs; C17 `_refuted` below sizeof(T) |
| C10 C12 C13 C14 | Container/Deque*: a ring of cap+1 slots, every wrap position | absolute coordinates: logical index a lives in slot a mod (cap+1) |
| C11 | deque iterator arithmetic with size_t wrap | modular arithmetic lemmas |
| C15 | as C06 for the deque | push, resize proved; insert: iff theorem for both moving directions and `_refuted` case |
| C16 | returned iterators in the C01/C10 specifications | corollary |
| C18 | copy/assign/== | refinement to list equality |
| C19-C22 C54 | Container/IntrusiveList*: heap of next/prev links, any number of lists | ring invariant for a family of disjoint lists |
| C23 | BitPattern over Z words of any width with integer promotion | Z.testbit reasoning |
| C24 | Array | list lemmas |
| C25 C26 | Assertion.h formatting at byte level | characterise each append as firstn; C26 line 0 `_refuted` |
| C27 | CHECK_ASSERT / handler dispatch | case analysis over configurations and histories |
| C28 C29 | OS/EventFlag* (StdCpp): one mutex + condition variable, sleeping and woken threads | simulation invariant with linearization; progress measure |
| C30 C31 | OS/Mutex* (StdCpp wrapper over std::recursive_timed_mutex) | same; C31 `_refuted` |
| C32 | LockGuard as scoped acquire/release over arbitrary programs | structural induction over programs |
| C33-C37 | OS/MessageQueue*, one step per lock / event / ring operation | invariant + linearization; C36 `_refuted` |
| C38 | ring buffer element lifetimes | `_refuted` |
| C39 C48 | create as a sequence of fallible acquisitions answered by an oracle | every failure point: resources released exactly once; sizes mod 2^64 |
| C40 C41 | OS/Thread* (StdCpp) | invariant over schedules, linearization, progress measure |
| C42 | Thread::threadMain / handleException, timer variants | case analysis over arbitrary user code |
| C43-C45 | OS/Timer* (StdCpp OneShotTimer, PeriodicTimer) | safety by invariant; hangs `_refuted` by explicit schedules; progress where it holds |
| C46 C47 C55 | OS/ThreadPool* over atomic queue, event flags, threads | ghost owner of each thread, linearization; C46 `_refuted` |
| C49 | Thread priority arithmetic | lia |
| C50 | Posix and Windows priority maps | loop invariants |
| C51 | ItronMutex over a kernel mutex model | simulation |
| C52 | static factory facades | case analysis over histories |
| C53 | `dbg = true` for the deque | as C07; `_refuted` for iterators that left the ring |
| C56 | ItronEventFlag over a kernel event-flag model with a wait queue | linearization against the same EventFlagSpec as C28; `_refuted` for a narrow FLGPTN |
| C57 | ItronThread over kernel tasks, event flag, mutex | linearization against ThreadSpec extended by priorities; isFinished and wait need hindsight (their effect is inserted before a start that has cleared EV_FINISHED); progress measure; `_refuted` for tryWait |
| C58 | Windows one-shot and periodic timers over a model of the multimedia timers (registered ids, one worker thread) | linearization against Spec/WinTimerSpec (its own sequential machine, which names the leftover times); counting and round structure by induction on runs of the specification; progress measure; `_refuted` schedules |
| C59 | the same model, destructor and freeing | state predicate `dangling`; invariant of the destruction of a quiet timer; `_refuted` schedules |
| C60 | OS/ItronPoolModel.v: the pool table of ItronFixedMemoryPoolFactory with its lock, kernel pools as environment; StdCpp sizes | linearizability by forward simulation; invariant of slots and kernel ids; measure; arithmetic; `_refuted` for a missing mutex, a macro with overhead, size_t overflow |
| C61 | OS/ItronThreadFactoryModel.v, OS/StdThreadFactoryModel.v: create, destroy, getCurrentThread of the thread factories with lock, id map, system threads and ids as environment (re-used ids, foreign threads, failures) | invariants relating map, objects and system threads; trace invariant for objects in use; measure; `_refuted` for the id re-use race of StdCpp |
| C62 | OS/ItronObjectModel.v: create, destroy, constructor, destructor of event flags, mutexes, periodic timers; start, stop, isStarted, callback and its exceptions; kernel pool, ids and cyclic handlers as environment | invariant over the stages of each object (ghost), linearization against Spec/ObjectSpec, spec-level corollaries (no callback without start), measure; `_refuted` for callbacks on several processors |
| C63 | OS/TimerFactoryModel.v: create/destroy of the StdCpp and Windows timers against an arbitrary platform; the factory's lock with threads and callbacks as agents | resource traces (Spec/Resource.v); wait-for chain from any stuck state, descent along a rank; measure; `_refuted` for failed thread/event-flag creation, for setPriority throwing, and for a Windows callback that creates a timer |
| C64 | Container/NoExcModel.v: every member function with CPPELIB_CONTAINER_THROW and DEBUG_ASSERT as statements that may return | with throw they are the C01/C10 models (proved equal); with a handler that never returns, a simulation maps each exception to the end of the program; with one that returns, `_refuted` for every full vector/deque |
| C65 | OS/QueueStackModel.v: the queue's threads, three mutexes and event flag as one transition system, generic in the implementations of Mutex and EventFlag; two instances (StdCpp, Itron) | a simulation into the atomic-object model of C33-C38: each Eff event of an object is the queue model's step; what it needs of an object is proved of StdCppMutex, StdCppEventFlag, ItronMutex, ItronEventFlag; a lock() on m_mtxRB that fails: `_refuted` by a run |
| C66 | OS/TimedModel.v: a clock beside the models of StdCppMutex, StdCppEventFlag and MessageQueue; the start of each time-limited wait is recorded and a wait may give up only when its limit has passed; Spec/TimedSpec.v: stamped events | invariant of the calls in progress (when they began to wait, what time it is at each point); lower bounds for every clock; upper bounds for the clock that runs only while every thread waits, with the no-deadlock lemmas of C29, C30, C35; that such a clock never stops: the step bounds of those claims; `_refuted` by a run |
| C67 | OS/TimerTimeModel.v: the clock of C66 beside the timer model of C43-C45 (deadline fixed when the timer thread enters wait_for); Spec/TimerTimeSpec.v: the marks of Spec/TimerSpec with their times | invariants relating the last arming mark, the start of the wait and the clock; lower bound for every clock, equality for the clock that runs only while clients wait and the timer thread sleeps, waits or is in the callback; that this clock never stops: a measure; durations of calls: no call in progress sleeps when time passes, from the wait invariants of C43, C45 |
| C68 | OS/VarPoolModel.v: the table of ItronVariableMemoryPoolFactory with its lock, kernel pools (base, size, pieces out) as environment with any rule for usable places; the malloc pools of StdCpp; Spec/VarPoolSpec.v also defines what callers see of a pool (pool_view) | linearizability by forward simulation; invariant of slots, kernel ids and pools; total of non-overlapping pieces by induction (split at one piece); measure; `_refuted` for a missing mutex and for StdCpp's size, memory and destroy |
| C69 | OS/ThreadAttrModel.v: a thread object's m_priority, m_initialPriority, m_name with its mutex, the factory's recursive mutex, native priority; one step per lock operation, field access and system call; generic in the platform (which arguments are direct, normal priority, table of native priorities) with the three instances | linearizability by forward simulation under `own_master`; `_refuted` with a complete search for linearizations (OS/LinCheck.v, proved complete); lock, lifetime and value invariants; measure |
| C70 | OS/Monitor.v: objects with one mutex, generic: a program of reads, writes, notifications per critical section, each a step of its own; OS/ThreadFineModel.v, OS/TimerFineModel.v: StdCppThread and the StdCpp timers so | simulation of the fine machine by one that runs whole sections, and of that by the models of C40-C45, with step counts; the C40-C45 theorems carried over; mutual exclusion gives absence of data races |
| C71 | OS/PlatformModel.v: the five init functions with their function-local factories, on top of the facades of C52 and the priority queries of C50 | the s_factory pointers after any history are a fold over it (Spec/PlatformSpec.v: `in_charge`, `first_range`); every call computed from them |
| C72 | OS/DoubleModel.v: the doubles of TestDoubleOSWrapper and MessageQueue.h over them in one thread, the doubles' answers an arbitrary function of the calls made so far | case lemmas for timedSend/timedReceive with the ring buffer of C44 (`ring_rep`), log nesting invariant `holds`; induction over the program |
| C73 | OS/DoublePoolModel.v: ThreadPool.cpp over that queue and thread doubles that do nothing or run their task at once | invariant: free runners and guarded runners are disjoint, without repetition, below n; permutation of 0..n-1 when guards are used properly; induction over the program |
| C74 | OS/PoolStackModel.v: the pool of OS/ThreadPoolModel whose free-thread queue is MessageQueue's own model (mutexes, event flag, ring) instead of an atomic object; the filled queue is any state the creating thread's N sends can lead to | forward simulation (OS/PoolStackProofs.v): an invariant relates each state to one of OS/ThreadPoolModel; a push counts when EV_NOT_EMPTY is signalled, a pop when the ring is popped, a refusal when timedLock or timedWait gives up; so every trace is one of OS/ThreadPoolModel; stuck states correspond; a measure 14*work + queue steps bounds the work |
| C75 | OS/HandlerRaceModel.v: the handler pointers of all objects, the three defaults and the pool's; every read and write of a pointer is a step; dispatch of Thread.cpp:103-119 and the timers' handleException step by step; the pool's loop (ThreadPool.cpp:212-223) step by step; any agents set and get at any time | trace-prefix invariants: pointers are what the trace says, an object in dispatch has an unsettled throw in the trace; refutations are concrete schedules |
| C76 | OS/RaceModel.v: for each position of a thread in the models of MessageQueue, StdCppEventFlag, StdCppMutex, ItronMutex and ThreadPool, the plain shared variables its next step reads or writes, with the lines of the code | `complete`: the lists are checked against the step functions (what is not listed as written keeps its value; what is not listed has no influence on the step - a non-interference lemma); race freedom from the lock invariants and, for ThreadPool, from the ownership invariant of C47 |
| C77 | OS/TimedThreadModel.v, OS/TimedPoolModel.v: the clock of C66 beside StdCppThread (OS/ThreadModel.v) and beside ThreadPool over the real MessageQueue (OS/PoolStackModel.v); Spec/TimedMoreSpec.v: the limits | as C66 (OS/TimedCalls.v: steps that show a call and its return at once); when the clock runs nobody waits in the join of a pool thread (a queued thread is off or about to be), by the simulation and the ownership invariant of C74; step bounds of C40 and C74 for the clock going on; `_refuted` by a run |
| C78 | the model of C19-C22 (Container/IntrusiveListModel.v), run in debug mode on calls outside their contract | Container/IntrusiveListMisuse.v: assertions come before the first write of every call (`early`), contracts imply success (C19); case analysis for what is caught; `_refuted` by two runs |
| C79 | OS/PoolWholeModel.v: the pool's own code of OS/ThreadPoolModel.v beside one StdCppThread (OS/ThreadModel.v) and one StdCppEventFlag (OS/EventFlagModel.v) per runner and the MessageQueue stack of C65 (OS/QueueStackModel.v: ring, three StdCppMutex, one StdCppEventFlag); an object's calls and returns are matched with the place of the caller in the pool's code | forward simulation into OS/PoolStackModel.v (OS/PoolWholeProofs.v): the state of the atomic threads and flags is computed from the objects' (a wait or start counts when its critical section has decided it); only the return of a task's end comes later than in C74, and delayed returns keep linearizability; the stuck state of all objects is one of C74's (OS/PoolStill.v, OS/PoolWholeLive.v), by the per-object facts of C65 (a stuck event flag has only waiters whose condition is false) and of StdCppThread (a sleeper's thread is active); OS/PoolWholeBound.v bounds the work as in C81 below; OS/PoolBack.v: at rest every thread is in the ring buffer of free threads exactly once (c79_all_back) |
| C80 | the step functions of Container/VectorModel.v and Container/DequeModel.v (C01, C10) unchanged; the fuse counts the copies; Spec/CopySpec.v gives the number of copies and the elements left alone for every call | a second logic over the same monad (Container/Cost.v: `acts R c Q m s` - exactly c copies, slots of R neither read nor written) with rules for the primitives and loops, applied to the generic insertion (Container/GenCost.v) and to every call (VectorCost.v, DequeCost.v); two runs from objects that differ in the slot are then compared (CostTheorems.v), histories by induction (CostRuns.v) |
| C81 | OS/PoolItronModel.v: the pool's own code as in C79 beside one ItronThread (OS/ItronThreadModel.v: task states, EV_STARTED, EV_FINISHED, its mutex) and one ItronEventFlag (OS/ItronEventFlagModel.v) per runner and the MessageQueue stack over ItronMutex and ItronEventFlag (OS/QueueStackModel.v) | OS/PoolObjects.v restates the simulation of C79 for any thread and event-flag objects given by what they show their callers (calls pending and done, state of the thread, pattern); OS/PoolItronProofs.v shows ItronThread (by its invariant) and ItronEventFlag (by the linearizability of C61) to be such objects; a task that is dormant but not yet started and a caller polling for dormancy are covered because no call in the pool waits for a thread that has been started but not yet run; OS/PoolItronLive.v: stuck callers of ItronThread sleep in twai_flg or poll a task that is not dormant, hence the stuck state is one of C74's; OS/PoolItronBound.v bounds the work: a step of the stack either is at least one step of the pool over the queue stack, of which C74's bound allows finitely many, or lowers what the mutexes, flags and threads have left to do; OS/PoolItronBack.v: at rest every thread is in the ring buffer of free threads exactly once (c81_all_back) |
| C82 | OS/TimedItronModel.v, OS/TimedItronThreadModel.v: the clock of C66 beside ItronMutex (OS/ItronMutexModel.v), ItronEventFlag (OS/ItronEventFlagModel.v) and ItronThread (OS/ItronThreadModel.v); the kernel counts a limit from the entry of the system call | as C66 and C77 (OS/TimedProofs.v, OS/TimedCalls.v); what holds when the clock runs (owner, queue, task state) by the invariants of C51, C56 and C57; for the thread: when EV_FINISHED has been seen and no start is in progress the task is dormant or about to be; step bounds of C51, C56 and C57 for the clock going on; `_refuted` by a run |
| C83 | OS/CyclicModel.v: one ItronPeriodicTimer with the kernel's cyclic handler (sta_cyc, stp_cyc, ref_cyc, activations) and a clock; Spec/CyclicSpec.v: what the trace says of the last start and the callbacks since | invariant tying the handler's state to the trace; each event judged by what came before it (`hist`); step measure for the clock going on; `_refuted` by an execution of any length in which start is called once per period |
| C84 | OS/WinTimeModel.v: a clock on top of OS/WinTimerModel.v (expiry time of each registered timer); Spec/WinTimeSpec.v: what the stamped trace says of the last start, the expiries and the callbacks | a run with a clock projects to one without (so C58 holds of it); invariant tying the registered timers and the worker to the trace, one for every clock and one for the clock that runs only when nothing is due; counting invariant for every threshold of time (one-shot, unrestricted); step measure for the clock going on; `_refuted` by an execution |
| C85 | OS/DurationModel.v: the conversions between integer types and units on the way from the API to the system call; Spec/DurationSpec.v: what a duration means | modular arithmetic: for each conversion an iff between 'the system waits what was asked' and a range, for all widths; `_refuted` at concrete values beyond the range |
| C86 | OS/StaticModel.v: the stack of static objects built and not yet destroyed, of the program and of the library (factories inside init), the s_factory pointers, the constants of Timeout.cpp; Spec/StaticSpec.v: what a use must get, from the history alone | invariant: under each static object of the program lie all factories or none, as it was built after init or before; `_refuted` by executions |
| C87 | OS/ContextModel.v: the tasks of OS/ItronMutexModel.v with handlers stepping among them, kernel calls giving E_CTX to handlers (get_tid and ref_mtx may instead name the interrupted task); Spec/ContextSpec.v: the recursive mutex that refuses callers which are not threads | the execution splits into one of the tasks (C51) and one of the handlers, whose linearizations are merged; `_refuted` by executions |
| C88 | OS/FlagContextModel.v: the callers of OS/ItronEventFlagModel.v, some of them handlers whose kernel calls are refused (waits always, the others in a strict kernel); Spec/FlagContextSpec.v: the event flag that refuses those calls | the refused calls are woven into the linearization of the others (C56) where their caller is outside; `_refuted` by an execution |

Later properties (C56 ...) are described in properties.jsonl and in the header comment of their model file.

## What is modelled and what is not

Modelled: all member functions of FixedVector, PreallocatedVector, FixedDeque, PreallocatedDeque (with iterators), IntrusiveList,
BitPattern, Array; Assertion.h; LockGuard; MessageQueue with its ring buffer; ThreadPool with TaskRunner and WaitGuard; the static
facades; Thread's exception handling and priority arithmetic; of the platforms: StdCpp EventFlag, Mutex, Thread, OneShotTimer,
PeriodicTimer; Posix and Windows priority tables; ItronMutex, ItronEventFlag, ItronThread; Windows timers (environment: multimedia timers with fresh ids and a single worker thread); the thread factories (Itron, StdCpp); the Itron fixed and variable memory-pool factories and the StdCpp variable-size pools; the Itron factories of event flags, mutexes and periodic timers and the periodic timer itself; thread attributes (priority, initial priority, name) on StdCpp, Posix and Windows; the timer factories of StdCpp and Windows; the containers under CPPELIB_NO_EXCEPTIONS; the init functions of the five platforms; the test doubles, with MessageQueue and ThreadPool over them; MessageQueue running over the modelled StdCpp and Itron mutexes and event flags; and what later properties add (see the header of each model file).

Not modelled: real time and durations outside C66, C67, C77, C82, C83, C84 and C85 (and there: the time spent computing or waiting for a processor, clock adjustments, rounding); thread names, stack sizes; the test sources and build files; iterator categories and
compile-time traits; behaviour of the OSWrapper code under CPPELIB_NO_EXCEPTIONS except where a model says so; memory-model effects weaker than sequential
consistency (all shared accesses of the modelled platform code are made under a lock - for StdCppThread and the StdCpp timers C70 proves that no two accesses are ever possible at once; ThreadPool's unlocked fields are proved to be
used by one agent at a time); std::* primitives beyond their documented contract (stated at the top of each model).

## Findings (each is a `_refuted` theorem unless said otherwise)

* Containers: constructors leak on a throwing copy (C05); deque insert of an own element on the moved side inserts a wrong value (C15);
  PreallocatedDeque on a buffer smaller than sizeof(T) has max_size() = SIZE_MAX (C17); deque iterators more than one lap outside the
  ring pass the debug checks (C53); assigning a list element that is in a list breaks both lists (C54).
* init (C71): ItronOSWrapper::init registers no one-shot timer factory, so OneShotTimer::create fails its assertion, or uses the factory of a platform initialized earlier; a second init on Posix or Windows ignores its priority range; if pthread_getschedparam fails in the first Posix init the range is 0..0 and the table empty for ever; re-initializing with another platform hands existing objects to a factory that did not make them. A Posix range ending at INT_MAX or INT_MIN overflows int in the loops (C50).
* ThreadPool over MessageQueue (C74): nothing refuted. Writing the simulation showed that OS/ThreadPoolModel's time-out rule was too narrow (a start may also be refused while another start that already has its thread, or has given up, still holds m_mtxRecv); the rule was widened and all theorems of C46-C48, C55 were proved again.
* Handlers set while threads run (C75): handleException tests m_uncaughtExceptionHandler and reads it again for the call (Thread.cpp:107-110, OneShotTimer.cpp:44-47, PeriodicTimer.cpp the same); the setters take no lock, so a handler removed in between is called through a null pointer. ThreadPool::setUncaughtExceptionHandler (ThreadPool.cpp:212-218) is a loop without lock: two calls at once may leave the pool's threads with different handlers for good.
* Data races (C76): StdCppMutex::unlock reads m_lockingCount (StdCppMutexFactory.cpp:83) before it knows that the caller owns the mutex; a call meant to return NotLocked races with the increment in another thread's lock().
* ThreadPool::timedStart may take up to twice its limit (C77): timedReceive waits first for the queue's receive mutex and then for a thread, each with the full limit. Waiting for the thread itself (ThreadPool.cpp:194, a third full limit) adds nothing, because a thread in the queue is already on its way out.
* IntrusiveList (C78): debug builds do not notice erase(end()) on a list that is not empty (the last and first element are linked to each other, and size() may never return), nor the insertion of an element that is already in a list (elements between are lost).
* ThreadPool over the whole StdCpp stack (C79): nothing refuted.
* cost (C80): insert(pos, 0, x) and insert(pos, first, first) in the middle, and in release builds erase(p, p), assign all elements on one side of the position to themselves (proved: c80_inserting_nothing_still_copies) - they can throw and cost as much as a real insertion.
* ItronThread::timedWait and tryWait may exceed their time limit (C82, C57): once EV_FINISHED has been seen they poll, without limit, until the task is dormant; when the thread is started again just then, that is until the end of the whole new run.
* ItronPeriodicTimer::start on a started timer is not without effect, as PeriodicTimer.h:84 says (and as on StdCpp and Windows): it puts the next callback off by a whole period; started again within each period the timer never fires (C83). (uITRON 4.0: sta_cyc without TA_PHS sets the next activation anew.)
* WindowsOneShotTimer, stopped and started again during its callback and started once more after it, calls back sooner than its time after the last start (C84): timerFunc clears m_started of the timer started in between, so the last start does not cancel its time.
* Durations (C85): on StdCpp a timeout of about 292 years or more (a large 64-bit value meant as 'very long') overflows std::chrono's nanoseconds, and the longest timer times and sleeps end at once; on Itron `static_cast<TMO>` and the implicit conversion to RELTIM turn large values into 'for ever', 'poll' or another period, without an error, while getPeriodInMillis still tells the period asked for.
* Static objects (C86): a static object built before init whose destructor destroys a Thread, Mutex, ... calls a factory that has been destroyed already (the factories are function-local statics of init; s_factory is never cleared): a pure virtual call. Timeout::FOREVER is 0 (POLLING) in constructors of static objects that run before Timeout.cpp is initialized (its constructor is not constexpr; compilers that initialize it statically all the same avoid this).
* Itron mutex outside tasks (C87): `tryLock` gives CalledByNonThread and `unlock` OtherError, neither documented in Mutex.h; in a kernel where get_tid and ref_mtx answer in handlers for the interrupted task, `unlock` in a timer callback decrements `m_recursiveCount` of the task it interrupted, so two tasks come to hold the mutex.
* Itron event flag outside tasks (C88): where the kernel answers E_CTX to set_flg, clr_flg or ref_flg in handlers (uITRON provides iset_flg for them, which the library never calls), `set` and `reset` ("Always success") give OtherError in a timer callback and `getCurrentPattern` returns 0.
* test doubles (C72, C73): with TestDoubleOSWrapper as it is, trySend on a full MessageQueue returns OK and makes the queue look empty (all messages lost), tryReceive on an empty one reads an unconstructed element (undefined behaviour); hence ThreadPool::destroy, which drains its queue until a receive fails, is always undefined behaviour, and so is starting one task more than there are threads. A test must override EventFlag::timedWait to answer an error.
* Assertion: line 0 prints as the empty string (C26). Latent: toCString with a buffer of exactly as many bytes as the number has digits writes its terminator one byte past the buffer (`c26_any_buffer_refuted`); the library always passes 16 bytes, so no call in it does.
* Mutex: unlock by a non-owner is undefined on StdCpp when the mutex is held by another thread (C31). LockGuard ignores a failed lock
  (stated in C32's theorems).
* MessageQueue: trySend/tryReceive time out under contention although there is room/data (C36); pending messages are not destroyed
  with the queue (C38); create(SIZE_MAX) wraps the buffer size (C39). A timed call may block for up to twice its time-out (not stated:
  time is not modelled).
* Priorities: getPriorityHigherThan overflows int (C49); StdCpp's range 0..0 has no min < normal < max (C49); the POSIX table is not
  monotone when the process already runs at a real-time priority (C50).
* Timers: five ways to hang (C43), a stop that returned in time may not prevent the callback (C44), a periodic timer's stop can hang
  if the callback throws meanwhile (C45).
* ThreadPool: a timed start can lose a thread forever (C46), after which start() may wait forever and destroy leaks (C48).
* ItronEventFlag: if FLGPTN is narrower than unsigned int, setOne on a high position returns OK and sets nothing (C56).
* ItronThread: tryWait and timed waits can block through a whole further run (C57).
* Windows one-shot timer: stop() then start() during the callback; when that callback ends it clears m_started, so isStarted() is false and stop() powerless although the new time runs and its callback comes (C58).
* Windows one-shot timer: stop() while the callback is due or running may leave isStarted() true (timeKillEvent fails) (C58).
* Windows timers: destroy can free the timer while its callback is due but has not yet reset m_evFinished (use after free); the one-shot callback also unlocks m_mutex after setAll, so destroy during a running callback is a race too; a callback that calls start() during destroy leaves a registered timer behind (C59).
* Memory pools (C60): the Itron factories ignore a failed acre_mtx in their constructors; then two concurrent creates can get the same pool. getRequiredMemorySize(blockSize, n) with n > 1 suffices only if the kernel's TSZ_MPF has no fixed overhead. On StdCpp blockSize * numBlocks can wrap, even to 0, which create refuses.
* getCurrentThread (C61), StdCpp/Posix/Windows: destroy joins the thread before it takes the factory's lock and erases the map entry. If the system gives the joined thread's id to a new thread in between, create's insert does nothing, the erase removes the entry, and the new thread gets null from getCurrentThread for ever; a foreign thread with that id gets a pointer to the object being deleted. Also (not modelled): create rethrows Assertion::Failure from setPriority/setName without joining or deleting the thread.
* Itron periodic timers (C62): destroy stops and deletes the cyclic handler and frees the timer without waiting for a callback that runs; on one processor handlers run to the end before a task goes on, but on a multiprocessor kernel the callback then uses a freed timer.
* Timer factories (C63): if Thread::create (StdCpp) or EventFlag::create (Windows) returns null, the timer's create dereferences it; if setPriority throws in beginThread, the timer and its running thread are lost. WindowsOneShot/PeriodicTimerFactory::destroy holds the factory's lock while it waits for the callback, so a callback that creates or destroys a timer of its kind meanwhile blocks both for ever.
* CPPELIB_NO_EXCEPTIONS (C64): the documentation says "aborted instead of the exception", but CPPELIB_CONTAINER_THROW is CHECK_ASSERT(false), which returns if no handler is set or the handler returns: push_back on a full vector then writes beyond the buffer, at() reads beyond it, and push_back/push_front on a full deque silently empties it.
* MessageQueue (C65): the private push, pop, checks and getSize take m_mtxRB with a LockGuard, which ignores what lock() returns. If that lock() fails once (std::system_error from std::recursive_timed_mutex, an Itron error such as E_RLWAI), a sender pushes without the lock, a receiver takes the message and returns before the sender sets NOT_EMPTY, a second receiver finds the queue empty, clears NOT_EMPTY and waits, the sender's set wakes it, and it pops an empty buffer.
* MessageQueue (C66): timedSend and timedReceive give the whole tmout first to timedLock of the outer mutex and then again to timedWait: a call with limit ms can take 2 ms (run: timedSend(.., 10) called at 5 returns TimedOut at 20).
* PeriodicTimer (C67), StdCpp: the period is counted from the end of the callback, not from its beginning: with period 10 and callbacks of 5 the callbacks begin at 10, 25, 40, ...
* VariableMemoryPool (C68), StdCpp/Posix/Windows: allocate is malloc: the pool's size is no limit, memoryPoolAddress is not used (it may be a region the caller must stay in), and destroy does not release what was allocated. Itron: as C60, a factory whose acre_mtx failed can give one pool to two creates.
* Thread attributes (C69): setPriority(INHERIT_PRIORITY) reads the caller's priority and sets the other's in two critical sections; if a third thread changes the caller's priority in between, the other gets the outdated one. The results of pthread_setschedparam and SetThreadPriority are ignored, so getPriority can report a priority the system refused. INHERIT_PRIORITY is -1: on Posix and Windows with a priority range that contains -1 it is taken as a priority. PosixThread and WindowsThread keep a reference to the factory's table, so setPriorityRange with live threads is a data race, and can make m_prioMap.at throw (not modelled). A PosixThreadFactory whose pthread_getschedparam fails has an empty table: every create gives null.
* Seen while reading, outside the model: timer factories dereference a null m_thread when Thread::create fails;
  starting with a valid WaitGuard loses the guarded thread (excluded by ThreadPool.h's contract).

## Trusted base

* Coq's kernel (coqc and coqchk 8.16.1).
* The reading of the C++ into the definitions: every definition cites the file and lines it models, simplifications are stated there.
* The specifications in Spec/ and the statements in Props/.
* Assumptions: `Print Assumptions` prints "Closed under the global context" for every theorem of Props/. (vcheck lists seven axioms of
  `Coq.ssr.ssrunder`: they are parameters of a sealed module of the standard library that is loaded with lia's dependencies; no theorem
  here depends on them.)
