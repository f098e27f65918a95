#!/usr/bin/env python3
"""MANIFEST.json from the cNN_ theorems of rocq/theories/Props and the status table below."""
import re, json, glob, collections
STATUS = {
 # id: (status, note); default is ("proved", "")
 "C05": ("partial", "The property is false of the code: refuted (constructed prefix is leaked when a constructor throws)."),
 "C15": ("partial", "push_back, push_front and resize proved; for insert the exact condition under which the right value is stored is proved (iff), so the property fails exactly outside it (refutation given)."),
 "C17": ("partial", "Proved for every buffer of at least sizeof(T) bytes; refuted for every smaller one (max_size() wraps)."),
 "C53": ("partial", "Proved for every position inside the ring; refuted for iterators that left the ring (begin()+7 in a ring of 5)."),
 "C54": ("partial", "Proved for copies into objects that are in no list; refuted for assignment to an element that is in a list (the implicit operator= copies the links)."),
 "C31": ("partial", "Proved when the mutex is free and no other call is in progress; refuted when another thread holds it."),
 "C26": ("partial", "Proved for every line from 1; refuted for line 0, which is printed as the empty string."),
 "C36": ("partial", "Proved up to contention: a timed-out call saw the queue full/empty during the call, or another call of its kind was in progress; refuted in general (trySend times out on an empty queue while another send holds the send mutex)."),
 "C38": ("partial", "destroy leaves exactly the pending messages undestroyed: none if all were received; refuted otherwise (~RingBuf is empty)."),
 "C39": ("partial", "Cleanup proved at every failure point; sizes proved when the true size fits in size_t, refuted for create(SIZE_MAX)."),
 "C49": ("partial", "Proved whenever base +/- d fits in int; refuted otherwise (signed overflow). min < normal < max proved for ranges with a middle, refuted for StdCpp (0,0)."),
 "C50": ("partial", "Totality, Windows monotonicity proved for all ranges; POSIX monotonicity proved when the process's own priority is below the SCHED_RR range, refuted otherwise."),
 "C43": ("partial", "False of the code: refuted in five ways (stop during callback then start; stop meeting the expiry; stop();start() inside the callback; two starters; two stoppers). Proved: calls that are not disturbed return, starts alone always return, and a one-shot timer always comes to rest in a bounded number of steps."),
 "C44": ("partial", "Proved: rounds of start / cancel-or-exactly-one-callback, firing, isStarted after stop, destroy. Refuted: a stop() that returned before the callback began does not always prevent it (expiry window)."),
 "C46": ("partial", "False of the code: refuted (timedStart receives a runner whose thread has not finished, times out in Thread::timedWait and drops the runner; then start() can wait forever). Proved: each TimedOut start loses at most one thread; as long as no start has timed out (e.g. all use FOREVER) the pool is linearizable without loss and every thread is in the queue, working or held by a guard."),
 "C48": ("partial", "Cleanup of create proved at every failure point for maxThreads < 2^61 (refuted for 2^61+1: the size wraps and an exception leaves create). destroy proved to release everything after any use in which no start timed out; refuted otherwise (lost runner of C46)."),
 "C45": ("partial", "Proved: callbacks only while started, stop after throw, no deadlock and bounded steps for one starting and one stopping thread. Refuted: hang if a callback throws during stop(), and with two starters."),
 "C56": ("partial", "Proved for every schedule when FLGPTN is at least as wide as unsigned int; refuted for every narrower FLGPTN (setOne returns OK and sets nothing). Time-outs below -1, which the kernel refuses, are excluded."),
 "C57": ("partial", "Atomicity, exactly-once runs, priorities, progress and destroy proved for all schedules; refuted: tryWait and timed waits can block through a whole further run (waitUntilDormant has no limit). Time-outs below -1, which the kernel refuses, are excluded."),
 "C58": ("partial", "Atomicity, non-blocking calls, callback counts and (periodic) exactness proved for all schedules; one-shot: the behaviour after stop and the round structure are proved when the timer is never restarted while a callback is due or running, and refuted otherwise; refuted: isStarted() false right after stop(), stop() prevents a due callback."),
 "C59": ("partial", "Proved when the timer is off and its callbacks are over (periodic: have begun) at destroy; refuted in general: use after free by a callback that is due, by the one-shot callback's unlock, and by a callback that restarts the timer."),
 "C60": ("partial", "Itron table proved in full given the factory's mutex (refuted without it); required size: proved for n = 1 and for macros with TSZ_MPF(n) >= n TSZ_MPF(1), refuted otherwise; StdCpp: proved when the product fits in size_t, refuted otherwise."),
 "C62": ("partial", "Proved in full for kernels whose handlers have precedence over tasks (uITRON on one processor); event flags and mutexes proved in full also on several processors; that a timer exists while its callback runs is refuted on several processors."),
 "C63": ("partial", "create: proved when the timer's thread (event flag) can be created and given its priority; refuted otherwise (null dereference; timer and thread lost). Locking: StdCpp proved for every discipline without circles of destroying callbacks; Windows proved when callbacks do not use the factory, refuted as soon as a callback creates a timer."),
 "C64": ("partial", "proved with an assertion handler that never returns; without one the calls go on: refuted (vector: undefined behaviour, deque: all elements lost)"),
 "C65": ("partial", "proved as long as lock() on the ring buffer's own mutex does not fail (and time-outs are >= -1 on Itron); one such failure, ignored by LockGuard, lets a receiver pop an empty queue: refuted"),
 "C66": ("partial", "lower bounds and the limits of lock and wait calls proved in full (the mutex below the platform's nesting limit); timedSend/timedReceive proved within twice the limit, and within the limit for a lone sender/receiver; within the limit in general: refuted"),
 "C67": ("partial", "never early, on time, none missed, k-th callback, destroy: proved in full; start/stop take no time: proved under the conditions of C43/C45 (without them they can hang, refuted there); firing every period whatever the callback takes: refuted (periods and callback durations add up)"),
 "C68": ("partial", "Itron: proved in full (two creates racing when the factory has no mutex: refuted); StdCpp: non-overlap, linearizability and progress proved; pool size, given memory and release on destroy: refuted (malloc and free, sizes and addresses ignored)"),
 "C69": ("partial", "atomic attributes: proved if a thread that inherits has its priority set by itself only, refuted otherwise (then all but the inherited value is as specified, and that was the caller's priority at some time during the call); native priority: proved unless the system refuses one, refuted then; the rest in full. destroy and setPriorityRange with live threads are not modelled"),
 "C71": ("partial", "Proved for every class a platform serves; refuted: uITRON's init registers no one-shot timer factory (creation fails an assertion, or silently uses the previous platform's), the range of a second init is ignored (and lost for ever if pthread_getschedparam fails in the first), an object outliving a change of platform is handed to a factory that did not make it. Factory constructors are assumed not to throw."),
 "C72": ("partial", "Doubles and lock nesting proved in full. FIFO, bound and absence of undefined behaviour proved when the event flag's waits answer an error, and for programs that never meet a full or empty queue whatever the waits answer; refuted with the library's own doubles: a send to a full queue returns OK and loses every message, a receive on an empty one is undefined behaviour. Copying a message does not throw here."),
 "C73": ("partial", "Exactly-once and order proved for any waits (timedLock answering OK); absence of undefined behaviour and destruction proved when the waits answer an error; refuted with the library's own doubles: destroy is always undefined behaviour, so is the start after the last free thread. Creation succeeds (failures: C48), tasks do not throw nor use the pool."),
 "C75": ("partial","the choice of the handler, the message, at most one call, the getters and the drop rule are proved for all schedules; that null is never called is false (c75_null_is_called_refuted: the pointer is tested and read again) and proved when no handler is set to null during the dispatch it matters to; the pool's loop is right when nobody else sets a handler of the pool meanwhile, and two such calls may leave threads with different handlers for good (c75_pool_sets_race_refuted)"),
 "C76": ("partial","proved for MessageQueue, StdCppEventFlag, ItronMutex and ThreadPool for all schedules; for StdCppMutex it is proved when threads unlock only what they hold and false otherwise (c76_mutex_race_refuted: unlock() reads m_lockingCount without the lock to return NotLocked)"),
 "C77": ("partial", "lower bounds, Thread::timedWait and WaitGuard::timedWait proved in full; timedStart proved within twice its limit, and within the limit when only one agent starts tasks; within the limit in general: refuted (the two waits of timedReceive, as in C66). The join of the chosen thread takes no time: it is already on its way out. The uITRON and Windows threads have no clock here."),
 "C78": ("partial", "An assertion never fails on a legal call and never after a change (swap, which has no precondition a caller could violate, left out); exactly what is caught is characterised (iff): empty lists, self-splice and splicing from end(), besides singular iterators. Refuted: erase(end()) of a list that is not empty and inserting an element that is in a list already go unnoticed and damage the list."),
 "C82": ("partial", "Mutex and EventFlag proved in full; Thread: lower bounds and progress of the clock proved in full, the upper bound when no start is in progress together with a timedWait; without that refuted: timedWait that has seen EV_FINISHED polls until the task is dormant, with no limit, through a whole further run if the thread is started in between (as in C57)."),
 "C83": ("partial", "everything proved in full except that start() on a started timer does nothing, which is refuted: sta_cyc on a started cyclic handler (without TA_PHS) sets its next activation anew, so a timer that is started again within each period never fires."),
 "C84": ("partial", "PeriodicTimer proved in full; OneShotTimer: the bound on the number of callbacks and the progress of the clock proved in full, the times when the timer is never restarted while a callback is due or running (never_restarted_early); without that refuted: the end of the callback switches off the timer started during it, whose time runs on and expires too early for the next start (as in C58)."),
 "C85": ("partial", "Each conversion is proved exact precisely on a stated range (iff), and refuted beyond it: on StdCpp a timeout whose end in nanoseconds exceeds 63 bits is undefined behaviour and the longest timer times and sleeps are no time at all; on Itron with a TMO or RELTIM narrower than long some timeouts wait for ever or not at all, and a period is not the one getPeriodInMillis tells. The Windows timers are proved in full; the Windows waits are those of StdCpp."),
 "C86": ("partial", "What every use gets is proved exactly, at any time of the program's life; that it is never undefined behaviour is proved for destructors of static objects built after init and refuted for those built before (the factories, function-local statics of init, are gone by then, the pointers to them are not); FOREVER is right once Timeout.cpp has been initialized, in particular in main, and refuted before."),
 "C87": ("partial", "That handlers' calls are refused without effect, never wait and do not show to the threads is proved for kernels whose get_tid and ref_mtx give E_CTX outside tasks, and refuted for kernels that answer for the interrupted task (unlock then takes a level from that task). That the results are documented is proved for lock and timedLock, refuted for tryLock (CalledByNonThread) and unlock (OtherError)."),
 "C88": ("partial", "Proved for FLGPTN at least as wide as Pattern (narrower: see C56), in both kinds of kernel, with a call that the kernel refuses taken as one step. That set, reset and getCurrentPattern always succeed is proved for kernels that accept them outside tasks and refuted for those that do not (OtherError, or the pattern 0)."),
 "C61": ("partial", "Itron: proved in full. StdCpp/Posix/Windows: ownership, leaks, distinctness, progress proved in full; getCurrentThread proved when no thread gets an id that a destroy has joined but not yet erased (in particular when no thread begins during a destroy), refuted otherwise (null for a running thread; a dangling pointer)."),
 "C06": ("partial", "push_back and resize proved; insert(pos, n, v[i]) is proved right exactly when i < pos + n or v[i-n] = v[i] (iff), so the property fails exactly outside that (refutation given)."),
}
exec(open('/verif/tools/status.py').read()) if glob.glob('/verif/tools/status.py') else None
thms = collections.defaultdict(list)
for f in sorted(glob.glob('/verif/rocq/theories/Props/*.v')):
    for m in re.finditer(r'^(?:Theorem|Lemma|Corollary)\s+(c(\d\d)_\w+)', open(f).read(), re.M):
        thms['C' + m.group(2)].append(m.group(1))
claims = []
for line in open('/verif/properties.jsonl'):
    i = json.loads(line)['id']
    if i in thms:
        st, note = STATUS.get(i, ("proved", ""))
        claims.append({"property": i, "status": st, "theorems": thms[i], "note": note})
    elif i in STATUS:
        claims.append({"property": i, "status": STATUS[i][0], "theorems": [], "note": STATUS[i][1]})
json.dump({"claims": claims}, open('/verif/MANIFEST.json', 'w'), indent=1)
print(len(claims), 'claims', sum(len(c['theorems']) for c in claims), 'theorems')
