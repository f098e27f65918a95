# Source of properties.jsonl: keep the list here, run to regenerate.
import json
P=[]
def p(id,title,statement,quantifier,why,anchors): P.append(dict(id=id,title=title,statement=statement,quantifier=quantifier,why_tests_cant=why,anchors=anchors))
V="mechanism/Container/FixedVector.h"; PV="mechanism/Container/PreallocatedVector.h"
D="mechanism/Container/FixedDeque.h"; PD="mechanism/Container/PreallocatedDeque.h"
L="mechanism/Container/IntrusiveList.h"; B="mechanism/Container/BitPattern.h"; A="mechanism/Container/Array.h"
AS="mechanism/Assertion/Assertion.h"; MQ="mechanism/OSWrapper/MessageQueue.h"; TP="mechanism/OSWrapper/ThreadPool.cpp"
SE="platform/StdCppOSWrapper/StdCppEventFlagFactory.cpp"; SM="platform/StdCppOSWrapper/StdCppMutexFactory.cpp"
ST="platform/StdCppOSWrapper/StdCppThreadFactory.cpp"; SO="platform/StdCppOSWrapper/StdCppOneShotTimerFactory.cpp"; SP="platform/StdCppOSWrapper/StdCppPeriodicTimerFactory.cpp"
TH="mechanism/OSWrapper/Thread.cpp"

p("C01","Vector behaves as a bounded sequence","Every history of FixedVector/PreallocatedVector calls (push_back, pop_back, insert of one / n copies / a range, erase of one / a range, assign, resize, clear, at, [], front, back, size, available_size, empty, full) whose documented preconditions hold returns the same values, iterator positions and exceptions, and leaves the same contents, as the same calls on a mathematical sequence of length at most max_size(): insert yields prefix ++ inserted ++ suffix, erase removes exactly the range, everything else keeps its order.","all element types (abstract values), all capacities, all finite call histories, all positions and counts","insert takes one of two code paths depending on position, count and free room; only a finite number of (size, pos, n, capacity) combinations can be tested.",[V+": FixedVector::insert_n, insert_range, erase, resize, assign, push_back, pop_back, clear, at"])
p("C02","Vector capacity is a hard bound and overflow is atomic","size() never exceeds max_size(); a call that would exceed it throws BadAlloc and leaves contents, size and every element untouched; no element access ever leaves the buffer.","all capacities, histories and arguments, including counts near SIZE_MAX","an overflow check that is off by one or that is done after mutation only shows at particular sizes and counts.",[V+": push_back, insert_n, insert_range, assign, resize, available_size"])
p("C03","Vector element lifetimes are exact","Every element slot is constructed before it is read, assigned or destroyed, is never constructed twice without destruction in between, and is destroyed exactly once; clear() and the destructor leave no live element.","all histories, all slots","tests count constructor/destructor calls only for the scenarios written; raw-memory assignment usually goes unnoticed.",[V+": construct/destroy calls in push_back, pop_back, insert_n, insert_range, erase, clear, ~FixedVector","mechanism/Container/private/Construct.h"])
p("C04","Vector operations survive an element copy that throws","If the k-th element construction or assignment inside any vector operation throws, the exception propagates and the vector is left valid: size() <= max_size(), exactly the slots below size() hold live elements, so later calls and the destructor are safe; push_back leaves the contents unchanged.","every operation, every state, every throwing point k","the throwing point ranges over every copy made by the two insertion paths.",[V+": insert_n, insert_range, erase, resize, assign, push_back"])
p("C05","A vector constructor that throws must not leak elements","If an element copy throws while FixedVector(n, value), FixedVector(first,last) or the copy constructor runs, every element already constructed is destroyed.","all sizes and throwing points","needs a throwing copy at every index, and the leak is silent.",[V+": constructors"])
p("C06","insert/push_back/resize accept a reference to an own element","v.push_back(v[i]), v.resize(n, v[i]) and v.insert(pos, v[i]) (also with count) store copies of the value v[i] had at the call, as for STL vector.","all sizes, positions, counts, i","whether the referenced slot is overwritten before it is copied depends on the relation between i, pos, n and the free room.",[V+": insert, insert_n, push_back, resize"])
p("C07","Vector contract violations are caught in debug builds before any damage","With assertions enabled, pop_back/front/back on an empty vector and insert/erase with an iterator outside the legal range end in an assertion failure with the vector unchanged; no call other than unchecked operator[] ever reaches undefined behaviour, whatever position or count is passed.","all states, all iterator offsets (also outside the buffer), all counts","the argument space includes every invalid iterator.",[V+": DEBUG_ASSERT uses"])
p("C08","Bounds-checked access","at(i) returns element i when i < size() and throws OutOfRange otherwise, without side effects (vector, deque and Array).","all states, all i up to SIZE_MAX","boundary at every size.",[V+": at",D+": at",A+": at"])
p("C09","PreallocatedVector capacity and one-time init","A PreallocatedVector over a buffer of n bytes behaves exactly as a FixedVector of capacity floor(n / sizeof(T)), never touches memory beyond the buffer, and init() after the buffer is set changes nothing.","all buffer sizes, element sizes, histories","all non-multiple buffer sizes.",[PV+": max_size, init, operator=="])
p("C10","Deque behaves as a bounded sequence","Every history of FixedDeque/PreallocatedDeque calls (push/pop at both ends, insert, erase, assign, resize, clear, access) whose documented preconditions hold returns the same values and exceptions and leaves the same contents as the same calls on a mathematical sequence of length at most max_size(), wherever the ring currently wraps.","all capacities, all ring offsets, all call histories","insert has eight paths (end/begin side, overlap/non-overlap, n/range), each crossed with every wrap position.",[D+": insert_n, insert_range, erase, push_back, push_front, pop_back, pop_front, resize, assign"])
p("C11","Deque iterators form a random-access iteration over the ring","For iterators in [begin,end]: (it+n)-it = n, (it+n)+m = it+(n+m), it-- inverts ++, ordering agrees with logical position, end()-begin() = size(), it[n] is element n from it - at every ring offset, with size_t wrap-around arithmetic not overflowing for any object that fits in memory.","all capacities < 2^63, ring offsets, positions","index wrap-around has a case at every offset and every distance.",[D+": FixedDeque_iterator, next_idx, prev_idx, distance_idx"])
p("C12","Deque capacity is a hard bound and overflow is atomic","size() never exceeds max_size(); an over-capacity call throws BadAlloc with contents unchanged; no access leaves the ring buffer.","all capacities, offsets, histories","full-ring state exists at every offset.",[D+": full, available_size, push_back, push_front, insert_n, insert_range"])
p("C13","Deque element lifetimes are exact","Exactly the slots from begin to end of the ring hold live elements; each is constructed once and destroyed once; the spare slot is never live; clear() and the destructor leave none.","all histories, offsets","see C03, times every wrap position.",[D+": insert_n, insert_range, erase, clear, ~FixedDeque"])
p("C14","Deque operations survive an element copy that throws","If any element construction or assignment inside a deque operation throws, the deque is left valid: exactly the slots between begin and end are live and size() <= max_size().","every operation, state, throwing point","see C04, for both growth directions.",[D+": insert_n, insert_range, erase"])
p("C15","Deque insert/push accept a reference to an own element","d.push_back(d[i]), d.push_front(d[i]) and d.insert(pos, d[i]) store copies of the value d[i] had at the call, as for STL deque.","all sizes, positions, counts, i, ring offsets","depends on the direction chosen and the overlap.",[D+": insert, insert_n, push_front"])
p("C16","insert and erase return the right iterator","insert(pos, x) returns an iterator to the inserted element and erase returns an iterator to the element after the removed range (or end()), for vector and deque, whichever side was moved.","all states and positions","deque returns different expressions on each path.",[V+": insert, erase",D+": insert_n return, erase return"])
p("C17","PreallocatedDeque capacity","A PreallocatedDeque over n bytes behaves as a FixedDeque of capacity floor(n/sizeof(T)) - 1 and never writes outside the n bytes, for every buffer size.","all buffer sizes including too small ones","sizes smaller than one element.",[PD+": max_size, num_elems_in_buf, push_back"])
p("C18","Copy, assignment and equality","Copy construction and assignment give a container equal to the source and independent of it, self-assignment changes nothing, == holds exactly when both hold equal sequences (and, for preallocated containers, equal capacities), != is its negation.","all pairs of states","pairs of states with different ring offsets.",[V+": operator=, operator==",D+": operator=, operator==",PV+": operator==",PD+": operator=="])
p("C19","IntrusiveList behaves as a sequence of element identities","Any history of push/pop/insert/erase/splice/swap on any number of lists, respecting the documented preconditions (an element is in at most one list), leaves each list holding exactly the sequence of element identities that the same history gives on mathematical sequences; size(), empty(), front(), back() and iteration report that sequence.","any number of lists and elements, any history","pointer surgery has aliasing cases (neighbours, same list, first/last) in unbounded number.",[L+": insert, erase, splice, swap, size, push_back, push_front, pop_back, pop_front"])
p("C20","IntrusiveList operations touch nothing else","An operation on one list never changes the contents of a list that is not an argument, nor detaches or duplicates any element; an erased element can be inserted again anywhere.","all lists, all operations","frame properties cannot be observed exhaustively.",[L+": insert, erase, splice"])
p("C21","splice and swap transfer in constant relinking and keep iterators valid","splice moves exactly the given element/range/list before pos, in order, from another or the same list, and swap exchanges the two contents; element identities (hence iterators) are preserved.","all list shapes, all positions and ranges, same or different lists","adjacent/overlapping positions.",[L+": splice (3 overloads), swap"])
p("C22","Backward traversal mirrors forward traversal","After any history, walking from end() with -- visits exactly the reverse of walking from begin() with ++, and both terminate.","all histories","prev links are rarely read by tests.",[L+": operator++, operator--, insert, erase, splice"])
p("C23","BitPattern bit algebra for every width","set/reset/flip of a position changes exactly that bit; set()/reset()/flip() act on all bits; test, all, any, none report exactly the bits; the stored value never leaves the range of T, for 8, 16, 32 and 64 bit T under C++ integer promotion.","all widths, values, positions","2^64 values; promotion to int differs per width.",[B+": set, reset, flip, test, all, any, none, size"])
p("C24","Array access, fill and equality","fill writes every element and nothing else; == is element-wise equality; at/front/back/[] read the right element.","all sizes, contents","all sizes.",[A+": fill, at, front, back, operator=="])
p("C25","Assertion message is a safe truncation","For every file name, line number from 1, expression and buffer size the failure message is exactly the longest prefix of 'file(line): Assertion failed (expr)' that fits, NUL-terminated, and no byte outside the buffer is written.","all strings, all line numbers 1..INT_MAX (0 is C26), all buffer sizes >= 1","string lengths around the truncation point of each of six pieces.",[AS+": Failure::Failure, concatCString, copyCString, toCString"])
p("C26","Line numbers are printed in decimal","For every line number the message shows its decimal representation.","all 32-bit line numbers","boundary values such as 0.",[AS+": toCString"])
p("C27","Assertion failure dispatch","A failing CHECK_ASSERT calls the registered handler exactly once with the message and, with exceptions enabled, throws Failure afterwards; control returns to the code after the check only when exceptions are disabled and a handler is absent or returns; a passing check has no effect.","all configurations and histories of setHandler","handler/exception configurations are compile-time variants.",[AS+": assertFail, setHandler, CHECK_ASSERT"])
p("C28","EventFlag bit semantics","set(p), reset(p), setAll, resetAll, setOne, resetOne update the pattern bitwise as documented; wait methods succeed exactly when the documented OR/AND condition holds at the instant of return, report that instant's pattern, clear all bits iff auto-reset, and reject an empty pattern, an invalid mode or an out-of-range position with InvalidParameter and no effect.","all patterns, modes, positions, timeouts","2^32 patterns times 2^32 masks times modes.",[SE+": StdCppEventFlag::timedWait, set, reset, setOne, resetOne, timedWaitOne"])
p("C29","EventFlag never loses a wake-up and auto-reset releases once","In every interleaving of any number of waiters and setters, no thread sleeps while its condition holds, TimedOut is returned only when the condition is false at that instant, FOREVER waits never time out, and with auto-reset two successful waits are separated by a set.","all schedules, any number of threads","schedules.",[SE+": timedWait, set, reset"])
p("C30","Mutex gives exclusive, recursive ownership","In every interleaving, at most one thread holds the mutex; a thread may lock it n times and it becomes free exactly after n unlocks; lock/tryLock/timedLock return OK exactly when ownership was taken; unlock of a free mutex returns NotLocked.","all schedules, threads, nesting depths (clients that unlock only what they locked)","schedules and nesting depths.",[SM+": StdCppMutex"])
p("C31","unlock by a thread that does not hold the mutex returns NotLocked and has no effect","As documented: unlock() returns NotLocked when the current thread has not locked the mutex - also when another thread holds it.","all schedules","needs an interleaving with another holder.",[SM+": StdCppMutex::unlock","mechanism/OSWrapper/Mutex.h"])
p("C32","LockGuard pairs lock and unlock","A LockGuard unlocks in its destructor exactly when it obtained (or adopted) the lock, including when the scope is left by an exception, and tolerates a null mutex.","all lock results, scope bodies, nestings","scope bodies are arbitrary.",["mechanism/OSWrapper/Mutex.cpp: LockGuard"])
p("C33","MessageQueue is a linearizable FIFO","In every interleaving of any number of senders and receivers, the messages received are exactly those whose send returned (or will return) OK, each once, in the order in which they were enqueued, and each call takes effect at one instant between its invocation and its return.","all schedules, thread counts, message values, queue sizes","schedules.",[MQ+": timedSend, timedReceive, push, pop, RingBuf"])
p("C34","MessageQueue never overfills or underflows","In every interleaving the size never exceeds getMaxSize(), a message is never stored into an occupied slot and never read from an empty one; getSize() is the number of queued messages.","all schedules, sizes (including 0)","schedules between the full/empty test and the push/pop.",[MQ+": isFull, isEmpty, push, pop, RingBuf::next_idx, getSize"])
p("C35","MessageQueue has no lost wake-up and no deadlock","In every reachable state, a sender waits only while the queue is full or a receiver is about to signal it, a receiver waits only while it is empty or a sender is about to signal it; whenever some call is in progress, some thread can proceed unless every blocked call is legitimately waiting.","all schedules","a missed event shows only in rare schedules.",[MQ+": isFull, isEmpty, timedSend, timedReceive, push, pop"])
p("C36","trySend/tryReceive report TimedOut only when full/empty","trySend returns TimedOut only if the queue was full at some instant during the call; tryReceive only if it was empty.","all schedules","needs a concurrent sender inside its critical section.",[MQ+": trySend, tryReceive, timedSend"])
p("C37","A message copy that throws loses nothing","If copying a message throws in send or receive, the call returns OtherError, the queue contents are unchanged, all locks are released and later calls work.","all states, schedules, throwing calls","throwing point times schedule.",[MQ+": timedSend, timedReceive, RingBuf::push, RingBuf::pop"])
p("C38","Destroying a MessageQueue destroys the queued messages","Every message object constructed by send is destroyed by receive or by MessageQueue::destroy.","all histories","leak is silent for trivially destructible T.",[MQ+": ~RingBuf, destroy"])
p("C39","MessageQueue::create sizes its memory correctly and cleans up on failure","create(maxSize) either returns a queue whose aligned object and maxSize+1 element slots fit in the allocated block, or returns null with every acquired resource released, at every possible failure point.","all maxSize, element sizes, failure points","sizes near overflow; each allocation failure.",[MQ+": create, destroy, createOSObjects"])
p("C40","Thread start/wait protocol","Each effective start() (on a finished thread) runs the runnable exactly once; start() on a running thread does nothing; wait returns OK only when the thread is finished; isFinished is true before the first start and after each run; waiting threads are woken.","all schedules, any number of starters and waiters","schedules.",[ST+": threadLoop, start, timedWait, isFinished"])
p("C41","Thread destroy waits for the run in progress and ends the native thread","Thread::destroy returns only after the run in progress has completed and the native thread loop has ended, and then it always ends, provided no start() races with destroy.","all schedules","schedules.",[ST+": endThread, threadLoop"])
p("C42","Uncaught exceptions are contained and dispatched once","Whatever the runnable throws, threadMain/timerMain never lets an exception escape, calls at most one handler - the object's own if set, else the default - once, with what()/message()/'Unknown Exception', swallows exceptions from the handler, and timers are stopped before the handler is called.","all handler configurations and exception kinds","combinations of runnable, handler and nested exceptions.",[TH+": threadMain, handleException","mechanism/OSWrapper/OneShotTimer.cpp","mechanism/OSWrapper/PeriodicTimer.cpp"])
p("C43","OneShotTimer start and stop never hang","In every interleaving start() and stop() return.","all schedules of controllers and timer thread","needs stop+start during the callback or a timeout racing with stop.",[SO+": threadLoop, start, stop"])
p("C44","OneShotTimer fires once per start","Each effective start() leads to at most one callback; a started timer that is not stopped fires; after firing or stop the timer is not started; a stop() that returns before the callback began prevents it.","all schedules","schedules.",[SO+": threadLoop, start, stop, isStarted"])
p("C45","PeriodicTimer start/stop protocol","Callbacks happen only while the timer is started or were begun before stop() took effect; a timer whose callback throws is stopped; stop()/start() from a single controlling thread never hang.","all schedules","schedules.",[SP+": threadLoop, start, stop"])
p("C46","ThreadPool never loses a thread","At all times every thread of the pool is free, running a task, or held by a valid WaitGuard; a start call that does not return OK leaves the number of threads available unchanged.","all schedules, all timeouts","needs tryStart to overlap the tail of a finishing task.",[TP+": timedStart, releaseRunner, TaskRunner::afterInvoke"])
p("C47","ThreadPool runs each accepted task exactly once and WaitGuard waits for it","Each start that returns OK runs its task exactly once on one pool thread, at most maxThreads tasks run at once, a thread is never given to two tasks at once, and WaitGuard::wait returns OK only after that task finished.","all schedules, tasks, pool sizes","schedules.",[TP+": timedStart, TaskRunner::run, afterInvoke, WaitGuard::release, timedWait"])
p("C48","ThreadPool::create releases everything on failure","If any allocation or OS object creation fails, create returns null and every resource acquired so far is released exactly once.","all failure points, all maxThreads","failure index ranges over 4 + 3*maxThreads allocations.",[TP+": create, constructMembers, destroyMembers, destroyRunners"])
p("C49","Priority arithmetic","getPriorityHigherThan(base,d) always lies in [min,max], equals base for d=0, moves toward the highest priority for d>0 and toward the lowest for d<0 by exactly |d| unless clamped, on both priority directions; min < normal < max.","all ranges, bases, differences","int ranges.",[TH+": getPriorityHigherThan, getNormalPriority"])
p("C50","Platform priority maps are total and monotone","For every configured priority range (ascending or descending) each OSWrapper priority in the range has exactly one native priority, and a higher OSWrapper priority never maps to a lower native priority (POSIX and Windows).","all ranges","all ranges, odd/even/negative midpoints.",["platform/PosixOSWrapper/PosixThreadFactory.cpp: setPriorityRange","platform/WindowsOSWrapper/WindowsThreadFactory.cpp: setPriorityRange"])
p("C51","ItronMutex is a correct recursive mutex over the non-recursive kernel mutex","n successful locks by a task need exactly n unlocks; unlock by a task that does not hold it returns NotLocked and changes nothing.","all schedules, nesting depths","nesting and interleavings.",["platform/ItronOSWrapper/ItronMutexFactory.cpp: timedLock, unlock, isLockedByThisThread"])
p("C52","Factory facade guards","Before a factory is registered create fails an assertion; destroy(null) and destroy without a factory do nothing; null runnables and a zero period are refused with null; otherwise exactly one call reaches the registered factory with the same arguments.","all argument values and registration histories","all argument combinations.",[TH+": create, destroy","mechanism/OSWrapper/PeriodicTimer.cpp: create","mechanism/OSWrapper/OneShotTimer.cpp","mechanism/OSWrapper/Mutex.cpp","mechanism/OSWrapper/EventFlag.cpp","mechanism/OSWrapper/FixedMemoryPool.cpp","mechanism/OSWrapper/VariableMemoryPool.cpp"])
p("C53","Deque contract violations are caught in debug builds before any damage","With assertions enabled, pop/front/back on an empty deque and insert/erase with an iterator outside [begin,end] end in an assertion failure with the deque unchanged; no call other than unchecked operator[] reaches undefined behaviour.","all states, ring offsets, iterator offsets and counts","the argument space includes every invalid iterator at every ring offset.",[D+": DEBUG_ASSERT uses, FixedDeque_iterator::operator<, distance_idx, next_idx"])
p("C54","Copying list elements does not disturb lists","Copying or assigning an element object of an IntrusiveList does not change the contents of any list.","all histories, all pairs of elements","tests copy elements that are in no list.",["mechanism/Container/IntrusiveList.h: IntrusiveListNode"])
p("C55","ThreadPool task priorities","A task runs with the priority its start asked for (the caller's own priority for INHERIT_PRIORITY), and a thread that is available again has the pool's default priority, also when the task threw.","all schedules, tasks, pool sizes, priorities","schedules: priorities are set while other calls use the same thread.",[TP+": TaskRunner::startThread, TaskRunner::afterInvoke"])
p("C56","The Itron event flag means the same as the StdCpp one","ItronEventFlag over the kernel's event flag obeys the documented EventFlag contract in every interleaving of tasks: each call takes effect at one instant, waits succeed exactly on their condition and report the pattern of that instant, auto-reset clears, empty patterns, invalid modes and out-of-range positions are rejected, no task sleeps while its condition holds, and time-outs happen only to waits with a limit.","all schedules, task priorities (queue orders), patterns, modes, positions, time-outs >= -1","patterns, schedules and the width of the kernel's FLGPTN vary per platform.",["platform/ItronOSWrapper/ItronEventFlagFactory.cpp: ItronEventFlag"])
p("C57","The Itron thread obeys the Thread contract","For ItronThread over the kernel's tasks: every effective start() runs the runnable exactly once, start() on a thread that is not finished does nothing, wait returns OK only if the thread was finished at an instant of the call, isFinished and getPriority report the state at one instant of the call, the runnable runs at the thread's priority, no caller is left waiting, destroy waits for the run in progress; tryWait and timed waits do not block beyond their limit.","all schedules, any number of starters, waiters and priority setters, including the thread itself","schedules: EV_FINISHED, the dormant state and the lock change at different instants.",["platform/ItronOSWrapper/ItronThreadFactory.cpp: ItronThread::start, timedWait, isFinished, waitUntilDormant, ItronThreadMain, setPriority, ItronThreadFactory::destroy"])
p("C58","Windows timers: calls never wait, callbacks match starts","For the Windows OneShotTimer and PeriodicTimer: start, stop and isStarted take effect atomically and never wait for a callback (also when called from it); a one-shot start yields at most one callback and exactly one unless a stop cancels it; callbacks do not overlap; after a stop and until the next start isStarted() is false and at most the callback that was already due still runs.","all schedules, all moments of expiry, all answers of timeSetEvent/timeKillEvent, any number of clients plus the callback itself","schedules: expiry, stop, restart and the end of a callback race; a test sees only a few interleavings.",["platform/WindowsOSWrapper/WindowsOneShotTimerFactory.cpp: WindowsOneShotTimer::start, stop, isStarted, timerFunc","platform/WindowsOSWrapper/WindowsPeriodicTimerFactory.cpp: WindowsPeriodicTimer::start, stop, isStarted, timerCallback"])
p("C59","Windows timers: destroy is safe","Once destroy() of a Windows OneShotTimer or PeriodicTimer has freed the timer, no callback and no running time uses it any more.","all schedules and moments of expiry","the window between expiry and the callback's first action is a few instructions wide; a use after free need not crash a test.",["platform/WindowsOSWrapper/WindowsOneShotTimerFactory.cpp: ~WindowsOneShotTimer, timerFunc, WindowsOneShotTimerFactory::destroy","platform/WindowsOSWrapper/WindowsPeriodicTimerFactory.cpp: ~WindowsPeriodicTimer, timerCallback, WindowsPeriodicTimerFactory::destroy"])
p("C60","Memory pools","Concurrent create, destroy, allocate, deallocate and getBlockSize of FixedMemoryPool on Itron behave as a bounded set of pools: live pools are distinct, a block is never handed out twice, allocate returns null only if all blocks are out, create returns null only if the pools are all in use, a size is zero or the kernel refuses; destroyed pools give everything back; no call blocks for ever. A pool created with getRequiredMemorySize(blockSize, n) bytes has n blocks.","all schedules of any number of tasks, all answers of the kernel including id reuse and failures, all sizes","the race between two creates is a few instructions wide and depends on the kernel's ids; sizes are unbounded.",["platform/ItronOSWrapper/ItronFixedMemoryPoolFactory.cpp: create, destroy, getRequiredMemorySize, ItronFixedMemoryPool","platform/ItronOSWrapper/private/ItronLock.h: Lock","platform/StdCppOSWrapper/StdCppFixedMemoryPoolFactory.cpp: create, getRequiredMemorySize","mechanism/OSWrapper/FixedMemoryPool.h: FixedMemoryPool"])
p("C61","Who am I: getCurrentThread and thread bookkeeping","Thread::getCurrentThread() called by any thread returns that thread's own live Thread object, and null to a thread not created by the library, however thread creations, destructions and re-uses of the system's thread ids interleave. create never returns an object that is in use; a thread in use owns exactly one system thread (Itron: task, event flag and mutex); when no call is running nothing else is allocated, even after creates that failed halfway; create refuses for lack of room only when all objects are taken; calls block only while a destroyed thread still runs.","all numbers of threads, all interleavings of create, destroy, getCurrentThread and of threads of the application, all ids the system may choose, all failures of system calls","The wrong answers need a thread id to be re-used between the join and the map update of a concurrent destroy; a test cannot force the system's choice of id nor that interleaving.",["platform/StdCppOSWrapper/StdCppThreadFactory.cpp: create, destroy, getCurrentThread","platform/ItronOSWrapper/ItronThreadFactory.cpp: create, destroy, getCurrentThread","mechanism/OSWrapper/Thread.h: Thread::getCurrentThread"])
p("C62","Event flags, mutexes and periodic timers are created and destroyed cleanly (Itron)",
  "EventFlag::create/destroy, Mutex::create/destroy and PeriodicTimer::create/destroy/start/stop/isStarted, called by any number of tasks, behave like atomic operations on a bounded family of objects: no object is handed out twice, create returns null for lack of room only when all objects are in use, a create that the kernel refuses leaves nothing behind, and destroy gives back the block and the kernel object. A timer's callback begins only while the timer is started: never before start, and never after stop, destroy or an exception of the callback unless it was started again. While a callback runs the timer exists (on a kernel where handlers have precedence over tasks; on several processors destroy can free the timer under a running callback). No call is blocked for ever.",
  "every number of tasks, every interleaving of their steps and of timer activations, every order in which the kernel hands out blocks and ids, and every failure of the kernel",
  "the outcome depends on when the cyclic handler is activated between two steps of create, start, stop or destroy, and on which ids the kernel uses again",
  ["platform/ItronOSWrapper/ItronPeriodicTimerFactory.cpp:ItronPeriodicTimerFactory::create","platform/ItronOSWrapper/ItronPeriodicTimerFactory.cpp:ItronPeriodicTimerFactory::destroy","platform/ItronOSWrapper/ItronEventFlagFactory.cpp:ItronEventFlagFactory::create","platform/ItronOSWrapper/ItronEventFlagFactory.cpp:ItronEventFlagFactory::destroy","platform/ItronOSWrapper/ItronMutexFactory.cpp:ItronMutexFactory::create","platform/ItronOSWrapper/ItronMutexFactory.cpp:ItronMutexFactory::destroy","mechanism/OSWrapper/PeriodicTimer.cpp:PeriodicTimer::handleException"])
p("C63","Timers are created and destroyed cleanly, also by callbacks (StdCpp, Windows)",
  "OneShotTimer::create and PeriodicTimer::create return either a timer or null with nothing left behind, whichever allocation, thread or event flag the platform refuses, and destroy gives everything back. Threads and timer callbacks may create and destroy timers at the same time: no call is blocked for ever unless callbacks destroy each other's timers in a circle, and a timer is deleted only when its callback is over.",
  "every pattern of refusals by the platform; every number of threads and timers and every interleaving of their calls and callbacks",
  "the failures cannot be provoked one by one through the API, and the deadlock needs a destroy that meets a running callback",
  ["platform/StdCppOSWrapper/StdCppOneShotTimerFactory.cpp:StdCppOneShotTimerFactory::create","platform/StdCppOSWrapper/StdCppOneShotTimerFactory.cpp:StdCppOneShotTimerFactory::destroy","platform/StdCppOSWrapper/StdCppPeriodicTimerFactory.cpp:StdCppPeriodicTimerFactory::create","platform/StdCppOSWrapper/StdCppPeriodicTimerFactory.cpp:StdCppPeriodicTimerFactory::destroy","platform/WindowsOSWrapper/WindowsOneShotTimerFactory.cpp:WindowsOneShotTimerFactory::destroy","platform/WindowsOSWrapper/WindowsPeriodicTimerFactory.cpp:WindowsPeriodicTimerFactory::destroy"])
p("C64","Containers in builds without exceptions",
"With CPPELIB_NO_EXCEPTIONS defined, a call of a vector, deque or array that would throw BadAlloc or OutOfRange ends the program (the documentation says 'aborted instead of the exception') before the container or any memory outside it is changed; all other calls behave as in the build with exceptions.",
"every capacity, element type, history of calls with any arguments, debug and release builds, every assertion handler",
"a test run sees a handful of overflows, usually with a handler that ends the test; the claim is about every call, every container state and every handler, including none",
["mechanism/Container/ContainerException.h: CPPELIB_CONTAINER_THROW","mechanism/Assertion/Assertion.h: CHECK_ASSERT, Failure::assertFail","mechanism/Container/FixedVector.h","mechanism/Container/FixedDeque.h","mechanism/Container/Array.h: at"])
p("C65","MessageQueue over the platform's own Mutex and EventFlag",
"A MessageQueue created with the StdCpp (or Itron) Mutex and EventFlag factories is, with all steps of the mutexes and of the event flag interleaved, an atomic bounded FIFO queue: no message is lost, duplicated or reordered, no empty or full buffer is touched; calls report an error other than TimedOut only when a lock or a copy failed; threads that cannot move are senders of a full queue or receivers of an empty one; and calls in progress make a bounded number of steps.",
"every capacity, message type, number of threads, mix of calls and time-outs, and every interleaving of the steps of the queue, its three mutexes and its event flag, with spurious wake-ups, time-outs, exceptions from lock() and from copies",
"the interleavings of three mutexes, a condition variable and a ring buffer are far too many to test, and the failing ones need one particular order",
["mechanism/OSWrapper/MessageQueue.h: timedSend, timedReceive, getSize, isFull, isEmpty, push, pop","mechanism/OSWrapper/Mutex.cpp: LockGuard","platform/StdCppOSWrapper/StdCppMutexFactory.cpp","platform/StdCppOSWrapper/StdCppEventFlagFactory.cpp","platform/ItronOSWrapper/ItronMutexFactory.cpp","platform/ItronOSWrapper/ItronEventFlagFactory.cpp"])
p("C66","Time limits are kept",
"A timedLock, timedWait, timedSend or timedReceive that returns TimedOut took at least its time limit, however threads are scheduled. Counting only the time threads spend waiting, a tryXxx call and every call that does not wait takes no time, and a call with limit ms returns within ms (lock and wait calls; send and receive: within ms if only one thread sends or receives, within 2 ms otherwise), unless the limit is Timeout::FOREVER.",
"every number of threads, mix of calls and limits, every interleaving with notifications, spurious wake-ups, time-outs and exceptions, and every way the clock advances between steps",
"a test measures one schedule on one machine; the late return needs two threads waiting behind each other",
["platform/StdCppOSWrapper/StdCppMutexFactory.cpp: tryLock, timedLock","platform/StdCppOSWrapper/StdCppEventFlagFactory.cpp: timedWait","mechanism/OSWrapper/MessageQueue.h: timedSend, timedReceive","mechanism/OSWrapper/Timeout.h"])
p("C67","Timers fire on time",
"The callback of a OneShotTimer or PeriodicTimer never begins before its time (period) has passed since the start that armed it and since the end of every earlier callback. Counting only the time spent waiting and in callbacks, it begins exactly then and none is missed: after a start at t0 the (k+1)-th callback of a periodic timer begins at t0 + (k+1) ms + the time the first k callbacks took. Destroying a timer waits for a running callback but not for the rest of the period; start, stop and isStarted take no time as long as they are not disturbed by other threads' starts and stops and no stop comes during the callback.",
"every time and period, number of threads and mix of start, stop, isStarted and destroy calls (also from the callback), every interleaving, spurious wake-up and duration of the callbacks, and every way the clock advances",
"a test measures one timer on one machine; an early callback needs a stop and start or a spurious wake-up at the right moment",
["platform/StdCppOSWrapper/StdCppOneShotTimerFactory.cpp: threadLoop, start, stop, endThread","platform/StdCppOSWrapper/StdCppPeriodicTimerFactory.cpp: threadLoop, start, stop, endThread"])
p("C68","Variable-size memory pools hand out memory that does not overlap",
"What a VariableMemoryPool has handed out and not got back never overlaps, also with other pools' memory; on Itron it lies inside the pool's memory (the caller's, if he gave one), its total is at most the pool's size, create never gives the same pool twice, null from create or allocate means there is no slot or no place, destroying a pool gives all its memory back, and no call blocks for ever. deallocate(null) does nothing.",
"every number of pools, sizes, addresses, tasks and mix of create, destroy, allocate and deallocate calls, every interleaving, every choice of ids and places by the kernel or malloc, and every failure of them",
"overlaps and doubly used slots depend on the interleaving of creates and on the history of allocations; a test sees a few of them",
["mechanism/OSWrapper/VariableMemoryPool.h","platform/ItronOSWrapper/ItronVariableMemoryPoolFactory.cpp","platform/StdCppOSWrapper/StdCppVariableMemoryPoolFactory.cpp"])
p("C69","A thread's priority, initial priority and name",
"Thread::create, setPriority, getPriority, getInitialPriority, setName and getName on StdCpp, Posix and Windows behave as atomic operations on the attributes of the threads: getPriority gives what was set last, INHERIT_PRIORITY (on Posix and Windows anything out of the range) stands for the caller's own priority, or the normal one for a caller that is not a thread of the library, getInitialPriority never changes and is the priority at creation, getName gives the last name; getPriority lies in the platform's range; no access of two threads to a thread's fields at once; setPriority never throws; no call blocks for ever; the operating system's priority is the table's entry for getPriority.",
"every number of threads and mix of these calls on any threads, every interleaving of critical sections, every priority range and argument, every refusal by the system",
"a priority that changes between being read and being set elsewhere, or a refused native priority, depends on the schedule and on the system's answers",
["platform/StdCppOSWrapper/StdCppThreadFactory.cpp","platform/PosixOSWrapper/PosixThreadFactory.cpp","platform/WindowsOSWrapper/WindowsThreadFactory.cpp","mechanism/OSWrapper/Thread.h"])
p("C70","The critical sections of Thread and of the timers are atomic and free of data races",
"With every single read, write and notification of StdCppThread and of the StdCpp one-shot and periodic timers interleaved in every possible way: no two threads are ever about to access a shared field at the same time; every call of start, wait, timedWait, isFinished, destroy, stop, isStarted still takes effect at one instant, with one run per start; no wake-up is lost, so that when nothing can move every call has returned (for the timers under the conditions of C43-C45); that point is reached in a bounded number of accesses; and nothing runs after destroy.",
"every number of clients and mix of calls, every interleaving of single field accesses, lock operations, time-outs and spurious wake-ups",
"a missing lock or a wake-up lost between the evaluation of a predicate and falling asleep shows only under interleavings a test cannot force",
["platform/StdCppOSWrapper/StdCppThreadFactory.cpp","platform/StdCppOSWrapper/StdCppOneShotTimerFactory.cpp","platform/StdCppOSWrapper/StdCppPeriodicTimerFactory.cpp"])
p("C71","After a platform's init, the library is that platform",
 "After init() of a platform (StdCpp, Posix, Windows, uITRON or the test doubles), and until the program registers another factory or calls another platform's init, every creation, destruction and query through the OSWrapper classes reaches that platform's factories, whatever was registered before and whatever calls come in between; calling the same init again changes nothing; on Posix and Windows the priorities Thread reports are those given to init; an object is destroyed by the factory that created it.",
 "all sequences of init calls of the five platforms, registrations and static calls, with all arguments; all behaviours of the factories",
 "the order of init calls and registrations, and the once-only construction of the function-local factories, give unboundedly many histories; tests call init once.",
 ["platform/StdCppOSWrapper/StdCppOSWrapper.cpp: init","platform/PosixOSWrapper/PosixOSWrapper.cpp: init","platform/WindowsOSWrapper/WindowsOSWrapper.cpp: init","platform/ItronOSWrapper/ItronOSWrapper.cpp: init","platform/TestDoubleOSWrapper/TestDoubleOSWrapper.cpp: init","platform/PosixOSWrapper/PosixThreadFactory.cpp: PosixThreadFactory","platform/WindowsOSWrapper/WindowsThreadFactory.cpp: WindowsThreadFactory"])
p("C72","A MessageQueue can be used in a unit test over the test doubles",
 "In a one-threaded unit test over TestDoubleOSWrapper (whose doubles a test may override to answer anything): a Thread or timer double reports the creation arguments and the last name and priority set; a MessageQueue over doubles releases every lock it was granted, in LIFO order, in every call and whatever the doubles answer; the queue delivers messages in FIFO order, never exceeds maxSize, a call that fails leaves it unchanged, and no call is undefined behaviour.",
 "all programs (sequences of calls with all arguments, message types and sizes) and all answers of the doubles as functions of the calls before",
 "a test fixes one script of answers and one program; the claim is about every script and program.",
 ["platform/TestDoubleOSWrapper/TestDoubleThreadFactory.h: TestDoubleThread","platform/TestDoubleOSWrapper/TestDoubleMutexFactory.h: TestDoubleMutex","platform/TestDoubleOSWrapper/TestDoubleEventFlagFactory.h: TestDoubleEventFlag","platform/TestDoubleOSWrapper/TestDoubleOneShotTimerFactory.h: TestDoubleOneShotTimer","platform/TestDoubleOSWrapper/TestDoublePeriodicTimerFactory.h: TestDoublePeriodicTimer","mechanism/OSWrapper/include/OSWrapper/MessageQueue.h: timedSend, timedReceive, getSize, getMaxSize"])
p("C73","A ThreadPool can be used in a unit test over the test doubles",
 "In a one-threaded unit test over TestDoubleOSWrapper, possibly with thread doubles overridden to run their task inside start() and with doubles answering anything to waits: every task whose start returned OK runs exactly once, in the order of the calls and with the priority given; starts succeed as long as a thread is free; destroying the pool destroys each of its threads exactly once; no call is undefined behaviour.",
 "all programs of start, WaitGuard wait and release calls, all numbers of threads, all answers of the doubles",
 "a test fixes one script of answers and one program; the claim is about every script, program and pool size.",
 ["platform/TestDoubleOSWrapper/TestDoubleThreadFactory.h: TestDoubleThread::start","mechanism/OSWrapper/ThreadPool.cpp: timedStart, destroyRunners, TaskRunner::run, WaitGuard::release","test/TestDoubleOSWrapperTest/OverrideTestDoubleOSWrapperTest.cpp"])
p("C74","ThreadPool keeps its promises over MessageQueue's real code",
 "With the pool's queue of free threads being a real MessageQueue, entered at the same time by starts, WaitGuard releases and ending tasks: whatever can be observed could also be observed with an atomic queue. In particular each accepted task runs exactly once, WaitGuard waits for its task, nothing is lost unless a start timed out, giving a thread back never blocks for good, a start without time limit waits only while every thread is running a task, held by a guard or lost to a time-out, the queue's buffer is never misused, and between ends of tasks and new calls only a bounded number of steps is made.",
 "all schedules of callers, pool threads and queue operations, all numbers of threads and callers, all time-outs, all states of the freshly filled queue",
 "the interleavings inside the queue (between its mutexes, its event flag and its buffer) multiply with those of the pool; tests see a few of them.",
 ["mechanism/OSWrapper/ThreadPool.cpp: timedStart, releaseRunner, afterInvoke, WaitGuard::release","mechanism/OSWrapper/MessageQueue.h: timedSend, timedReceive, push, pop"])
p("C75","Uncaught-exception handlers may be changed while threads run",
"While threads, timers and a ThreadPool run, any thread may set and get handlers at any time: every thrown exception leads to at most one handler call, with its message, of the handler set in the object at that moment or - if the object had none at some point since the throw - of the default of its class; it is dropped only if there was none; if no handler is changed while an exception is looked after, the choice is the one made by the handlers at the throw; a null handler is never called; ThreadPool::setUncaughtExceptionHandler gives all threads of the pool the handler it reports.",
"all schedules of all agents, all classes of objects, all pool sizes","needs a setter between the test of the pointer and the call, or two setters in the pool's loop.",
[TH+": setUncaughtExceptionHandler, setDefaultUncaughtExceptionHandler, handleException","mechanism/OSWrapper/OneShotTimer.cpp: handleException","mechanism/OSWrapper/PeriodicTimer.cpp: handleException",TP+": setUncaughtExceptionHandler"])
p("C76","No data races",
"Threads may call MessageQueue, EventFlag, Mutex and ThreadPool objects concurrently: no two threads are ever about to access the same plain shared variable of such an object (indices and slots of the queue, pattern of the event flag, nesting counter of the mutex, task and wait flag of a pool thread) with at least one of them writing.",
"all schedules, any number of threads, all sizes","absence of a race is a statement about all schedules; sanitizers see only the schedules that happen.",
["mechanism/OSWrapper/MessageQueue.h: RingBuf, push, pop, isFull, isEmpty, getSize","platform/StdCppOSWrapper/StdCppEventFlagFactory.cpp: m_pattern","platform/StdCppOSWrapper/StdCppMutexFactory.cpp: m_lockingCount","platform/ItronOSWrapper/ItronMutexFactory.cpp: m_recursiveCount",TP+": TaskRunner::m_task, m_needsWaiting"])
p("C77","How long thread and pool calls take",
"Thread::timedWait, ThreadPool::timedStart and WaitGuard::timedWait that report TimedOut took at least their time limit; and they return within it: however long the threads' own runs and tasks last, a call in progress is never past its limit. Calls that do not wait take no time.",
"all schedules and clocks, any number of threads and tasks, all limits","a bound on the time of every call under every interleaving; a test times a few calls.",
["platform/StdCppOSWrapper/StdCppThreadFactory.cpp: timedWait",TP+": timedStart, WaitGuard::timedWait","mechanism/OSWrapper/MessageQueue.h: timedReceive"])
p("C78","IntrusiveList contract violations are caught in debug builds before any damage",
"In debug builds a call of IntrusiveList or of its iterators that violates the documented preconditions fails an assertion and has changed nothing; an assertion never fails on a legal call.",
"all histories of legal calls on any family of lists, all calls after them, all arguments","contract violations are a complement of an infinite set of legal calls; tests try a few.",
["mechanism/Container/IntrusiveList.h: DEBUG_ASSERT in IntrusiveList_iterator, front, back, insert, erase, splice"])
p("C79","ThreadPool keeps its promises over the library's own threads, events, mutexes and queue",
"With the pool, its MessageQueue, and the Thread, EventFlag and Mutex objects of the StdCpp platform all running at once - each critical section of each of them a step of its own, with time-outs and spurious wake-ups: what callers see is what an atomic pool shows (strictly so if no start has a time limit); each accepted task runs exactly once; WaitGuard::wait and release return only after their task has run; the queue of free threads never corrupts memory; and there is no deadlock: when nothing can move but by time-outs, spurious wake-ups, new calls or ends of tasks, calls in progress are starts waiting because every thread is busy, held by a guard or lost to a start that timed out, or waits for a running task. Nor is there a livelock: the calls of n callers and the N threads take a bounded number of steps in all until a new call is made, a task ends or a condition variable wakes up spuriously. And when nothing runs any more and all guards are released, every thread is back in the queue exactly once, unless a start has timed out.",
"all schedules of callers, native threads and all objects below the pool, all numbers of threads, all time-outs, all states of the freshly filled queue, all values of unsigned int's width from 2 bits up",
"the interleavings of five layers of synchronisation code multiply; component tests with doubles replace all layers but one.",
[TP+": timedStart, TaskRunner::run, afterInvoke, releaseRunner, WaitGuard","platform/StdCppOSWrapper/StdCppThreadFactory.cpp: threadMain, start, timedWait","platform/StdCppOSWrapper/StdCppEventFlagFactory.cpp: setAll, resetAll, timedWaitAny","platform/StdCppOSWrapper/StdCppMutexFactory.cpp: timedLock, unlock","mechanism/OSWrapper/MessageQueue.h: timedSend, timedReceive"])
p("C80","Vector and deque operations copy a predictable number of elements and leave the others alone",
"A call on a vector or deque makes an exact number of element copies (constructions and assignments): the elements it stores, plus each element that has to move once, plus the slots it opens when fewer elements go in than move; a vector moves those behind the position, a deque those on the shorter side (so single insertions and erasures of a deque copy at most half of the others, plus two); insertion at the end of a vector and at either end of a deque copies the new elements only; a failing call copies none. Every other element is neither read, written nor moved - references to it stay valid, also when a copy throws - and that over whole histories. (Insertion of nothing, and with assertions off erase of nothing, still assigns the elements behind or before the position to themselves.)",
"all element types, capacities, contents and ring offsets, all calls and histories that meet the preconditions, all numbers of copies the element type allows before it throws",
"a cost formula and the absence of reads over all contents, positions and ring offsets; functional tests pass whichever side is shifted.",
[V+": insert, insert_n, insert_range, erase, push_back, assign, resize",D+": push_front, push_back, insert, insert_n, insert_range, erase, assign, resize",PV,PD])
p("C81","ThreadPool keeps its promises over the library's own objects on an Itron kernel",
"With the pool, its MessageQueue, and the Thread, EventFlag and Mutex objects of the Itron platform all running at once - each kernel call of each of them a step of its own, the kernel scheduling and queueing as it likes, refusing no mutex call: what callers see is what an atomic pool shows (strictly so if no start has a time limit); each accepted task runs exactly once; WaitGuard::wait and release return only after their task has run; the queue of free threads never corrupts memory; and there is no deadlock: when nothing can move but by time-outs, new calls, ends of tasks or polling a task that still runs, calls in progress are starts waiting because every thread is busy, held by a guard or lost to a start that timed out, or waits for a running task. Nor is there a livelock: the calls of n callers and the N threads take a bounded number of steps in all until a new call is made, a task ends, or polling a task that is not dormant goes one round further. And when nothing runs any more and all guards are released, every thread is back in the queue exactly once, unless a start has timed out.",
"all schedules of callers, kernel tasks and all objects below the pool, all numbers of threads, all time limits from -1 up, all states of the freshly filled queue, all widths of unsigned int from 2 bits up and of FLGPTN at least as wide, all priority ranges",
"the interleavings of five layers of synchronisation code and a kernel multiply; there is no Itron kernel to run the unit tests on at all.",
[TP+": timedStart, TaskRunner::run, afterInvoke, releaseRunner, WaitGuard","platform/ItronOSWrapper/ItronThreadFactory.cpp: ItronThreadMain, start, timedWait, isFinished","platform/ItronOSWrapper/ItronEventFlagFactory.cpp: setAll, resetAll, timedWaitAny","platform/ItronOSWrapper/ItronMutexFactory.cpp: timedLock, unlock","mechanism/OSWrapper/MessageQueue.h: timedSend, timedReceive"])
p("C82","The calls of the Itron platform's Mutex, EventFlag and Thread keep their time limits",
"On an Itron kernel, a call of Mutex::timedLock or tryLock, of one of EventFlag's waits or of Thread::timedWait or tryWait that reports TimedOut took at least its time limit; one with a time limit has returned when the limit is over (what is due taking no time of its own), whatever the other tasks do; calls that do not wait take no time; and whatever is going on, after finitely many steps time goes on: no loop of the library keeps the clock from running.",
"all schedules of all numbers of tasks, all calls with all time limits from -1 up, all moments at which the kernel lets a time-out take effect once it is due",
"a test waits a few chosen times on one machine; that no interleaving makes a wait longer or a time-out early is a statement about all of them, and there is no Itron kernel to run the unit tests on.",
["platform/ItronOSWrapper/ItronMutexFactory.cpp: timedLock, tryLock","platform/ItronOSWrapper/ItronEventFlagFactory.cpp: timedWaitAny, timedWaitOne, timedWait","platform/ItronOSWrapper/ItronThreadFactory.cpp: timedWait, waitUntilDormant"])
p("C83","The Itron platform's PeriodicTimer fires on time",
"A started PeriodicTimer of the Itron platform calls back once per period: the k-th callback since the start begins exactly k periods after it (so no drift adds up, however long the callbacks take), or, when the callback before it is still running then, as soon as that has ended; never before, one at a time, none left out; none while the timer is stopped; isStarted tells whether it is on; start() on a started timer does nothing; the timer never keeps time from going on.",
"all periods, all numbers of tasks that start, stop and ask, all interleavings with the kernel's activations, all durations of callbacks, any running time",
"a test measures a few periods on one machine; drift, a lost activation or a start at an unlucky moment show only over all schedules, and there is no Itron kernel to run the unit tests on.",
["platform/ItronOSWrapper/ItronPeriodicTimerFactory.cpp: ItronPeriodicTimer, timerCallback, start, stop, isStarted","mechanism/OSWrapper/PeriodicTimer.cpp: timerMain, handleException","mechanism/OSWrapper/PeriodicTimer.h: start"])
p("C84","The Windows timers fire on time",
"A started OneShotTimer of the Windows platform calls back exactly once, exactly its time after the start, and a PeriodicTimer each time another period has passed since the start (no drift adds up), or, when the callback before it is still running then, as soon as that has ended; never before, none left out; however a one-shot timer is started and stopped, its callbacks are never more than the starts that lie at least its time back; a timer never keeps time from going on.",
"both kinds of timer, all times and periods, all numbers of client threads, all interleavings of calls, expiries and callbacks (which may call the timer themselves), all durations of callbacks, any running time",
"a test measures a few periods on one machine; a callback that comes too early after a restart at an unlucky moment, drift or a lost expiry show only over all schedules.",
["platform/WindowsOSWrapper/WindowsOneShotTimerFactory.cpp: WindowsOneShotTimer","platform/WindowsOSWrapper/WindowsPeriodicTimerFactory.cpp: WindowsPeriodicTimer","mechanism/OSWrapper/OneShotTimer.h: start, stop","mechanism/OSWrapper/PeriodicTimer.h: start, stop"])
p("C85","A duration is the duration the system waits",
"Whatever number of milliseconds is given as a Timeout, as the time of a one-shot timer, as a period or to Thread::sleep, the system is asked to wait exactly that long; Timeout::FOREVER, and nothing else, waits for ever; what the platform cannot wait for is refused rather than turned into another duration.",
"all values of the argument's type, all widths of the system's time types (Itron), all readings of the system's clock (StdCpp), all limits of the system's timers (Windows)",
"a test waits a few milliseconds; nobody waits for the values at which a conversion between integer types or units wraps round.",
["mechanism/OSWrapper/Timeout.h: Timeout","platform/StdCppOSWrapper: timedWait, timedLock, threadLoop, sleep","platform/ItronOSWrapper: timedWait, timedLock, sleep, ItronPeriodicTimer","platform/WindowsOSWrapper/WindowsOneShotTimerFactory.cpp: start","platform/WindowsOSWrapper/WindowsPeriodicTimerFactory.cpp: start"])
p("C86","Static objects may use the library",
"From the first call of a platform's init to the end of the program, in the destructors of objects of static storage duration too, create, destroy and the other static methods are served by a factory that is alive; before that create fails its assertion and destroy does nothing; Timeout::FOREVER means for ever at any time, also in constructors of static objects.",
"all orders in which static objects of the program, the library's constants and the factories are built (init called at any moment, any number of times), all platforms, all classes, all uses before main, in main and during the destructions",
"the order of initialization across translation units is the linker's choice; a test program has one order, and most have ended when static objects are destroyed.",
["platform/StdCppOSWrapper/StdCppOSWrapper.cpp: init","platform/PosixOSWrapper/PosixOSWrapper.cpp: init","platform/WindowsOSWrapper/WindowsOSWrapper.cpp: init","platform/ItronOSWrapper/ItronOSWrapper.cpp: init","mechanism/OSWrapper/Timeout.cpp","mechanism/OSWrapper/Mutex.cpp: create, destroy","mechanism/OSWrapper/Thread.cpp: create, destroy"])
p("C87","A mutex on Itron may be called outside threads",
"On the Itron back end a mutex may also be called by callers that are not threads (interrupt handlers, timer callbacks): a call to lock, tryLock or timedLock from there never waits, gives CalledByNonThread and takes nothing; a call to unlock fails and releases nothing, whoever holds the mutex and however deep; every result is one the interface documents; and the threads see exactly what they would see if no handler had called.",
"every set of callers that are not threads, every number of threads, every program of calls of all of them (well-nested or not), every schedule, every kernel that answers E_CTX outside tasks, with or without answering get_tid there",
"a test calls from one handler at one moment, with the mutex free or held once; the recursion counter is shared by all callers without a lock of its own, and what unlock does depends on the task that happens to be interrupted",
["platform/ItronOSWrapper/ItronMutexFactory.cpp:18-36,67-117","mechanism/OSWrapper/Mutex.h:54-90","ItronMutex::timedLock","ItronMutex::unlock","ItronMutex::isLockedByThisThread"])
p("C88","An event flag on Itron may be called outside threads",
"On the Itron back end an event flag may also be called by callers that are not threads (interrupt handlers, timer callbacks): a wait call from there never waits, gives CalledByNonThread and takes no bits; setting, clearing and reading from there are atomic with the threads' calls and always succeed, and setting wakes the threads whose condition holds; the threads always see one atomic event flag.",
"every set of callers that are not threads, every number of threads, every program of calls with arguments of the C++ types, every schedule and queue order, auto-reset or not, every width of Pattern and of the kernel's flag type, kernels that accept or refuse these calls outside tasks",
"a test calls from one handler at one moment; handlers race with every step of every thread, and whether the calls are accepted depends on the kernel",
["platform/ItronOSWrapper/ItronEventFlagFactory.cpp:42-169","mechanism/OSWrapper/EventFlag.h:59-256","ItronEventFlag::timedWait","ItronEventFlag::set","ItronEventFlag::reset","ItronEventFlag::getCurrentPattern"])
with open("/verif/properties.jsonl","w") as f:
    for q in P: f.write(json.dumps(q)+"\n")
print(len(P))
