# A machine-checked model of g3log

Source: `/repo` (KjellKod/g3log, C++), read as text, never built or run.
Model and proofs: `rocq/theories`, Coq 8.16.1, standard library only.

This file was written before the proofs; sections marked *(status)* are kept up to date.

## 1. How the model is laid out

| directory            | content                                                                                   |
|----------------------|-------------------------------------------------------------------------------------------|
| `theories/Base`      | byte strings, `std::string` operations with `size_t` wrap-around, decimal rendering         |
| `theories/Model`     | the code, function by function; every definition cites file and lines in `/repo`           |
| `theories/Spec`      | small independent specifications, written without looking at the model's helpers            |
| `theories/Proofs`    | lemmas and invariants                                                                       |
| `theories/Properties`| the final theorems (`Cnn_...`), each with `Print Assumptions` and concrete `Example`s        |

Conventions

* Everything executable is a total Gallina function.  Undefined behaviour, exceptions, `abort`/`exit`
  and "blocked" are distinct outcomes of the model functions, never hidden in a default value.
* Concurrent parts are labelled transition systems `step : state -> action -> option state`; the action
  list is the schedule, so "for every schedule" is "for every list of actions".  `None` means the action
  is not enabled in that state.
* Ghost fields (histories) are marked as such; no transition depends on them.
* Strings are `list ascii`; `size_t` is `N` with explicit reduction modulo 2^64 where the code relies on it
  (`npos + 1`, `zeroes - size`, the flush counter).
* Naming: `Cnn_...` positive theorems; `..._refuted` shows the property as stated is false of the code, with
  a witness; `..._partial` marks a theorem weaker than the property.

## 2. Plan per property

### Queue and active object (`Model/SharedQueue.v`, `Model/ActiveObj.v`)
Modelled: `shared_queue.hpp` at the granularity of lock acquisition, guarded access, release,
condition-variable wait (atomic release+sleep), `notify_one` choosing any sleeper, spurious wake-up.
Any number of threads, each free to start any operation at any time (most general client).
* **C01** invariant `pushed = popped ++ content` over all schedules, plus a simulation to an atomic queue.
* **C02** counting invariant: if somebody sleeps then `|content| <= pending notifies + awake consumers`; pop on empty is a UB outcome proved unreachable; progress theorem.
* **C03**, **C04** `Active::run`, `send`, destructor on top of the fine-grained queue; invariant `pushed = executed ++ in flight ++ content`, shutdown callback last; destructor-return theorem, nothing after the shutdown callback; decreasing measure and quiescence for liveness. Callbacks may send.
* **C16** `spawn_task` as a callback that completes a promise; exactly-once completion by the same invariant.

### Programs over the queue (`Model/QueueClient.v`)
Modelled: any program over one `shared_queue`: threads with local variables, shared memory, arbitrary steps between the calls. `Spec/QueueClientSpec.v` is the same
program over a list with atomic operations. It is the reason why `Model/Worker.v` and others may use queues with atomic operations.

* **C124**: forward simulation (operations happen at their Commit; results on their way are applied early in the atomic system), and the converse by running one operation at a time;
  deadlocks by the analysis of stuck queues of C02.
* Simplified: one queue; others can be part of the shared memory, so the argument can be repeated for each.

### Worker, sinks, handles (`Model/Worker.v`)
Modelled: one `LogWorker` with its active object, any number of `Sink`s each with its own active object,
`shared_ptr`/`weak_ptr` ownership of sinks (strong count = number of owners: worker vector, queued add
tasks, worker temporaries, client temporaries), `addSink`, `removeSink`, `removeAllSinks`, `save`, `fatal`,
`SinkHandle::call`, `~Sink`, `~LogWorker`, `LOG`'s check-then-use of the global logger pointer, the fatal
path to `raise`.  Any number of client threads, most general client.  Queues are atomic here, justified by C01.
* **C05** invariant: received ++ in flight ++ queued ++ about to be queued = window(history popped so far), where `window` is an independent fold over the history of calls.
* **C06**, **C07** corollaries of C05 (sub-sequence of one common history).
* **C08**, **C09**, **C10** invariants about ownership, destruction and queue emptiness; "never again" as a statement about all continuations.
* **C11** call life-cycle invariant.
* **C12** decreasing measure on background steps + no stuck state with a blocked client.
* **C13** at the kill state: flush invariant, with the exception that sinks co-owned by clients at that moment need not be flushed (refuted in general with a witness schedule).
* **C14**, **C15** expected to be false of the code: witness schedules (`_refuted`) and the positive theorem under the hypothesis that excludes the race.
* **C17** (`Model/Ownership.v`) move-on-copy cells; invariant exactly one owner.
* **C18** (`Model/Copies.v`) heap model of message copies; non-interference.
* *(status)* C08 is refuted in one corner (two concurrent removals of one sink), C09 and C13 for sinks that a client holds too.

### Calls from the library's own threads (`Model/Reentry.v`)
The transition system of `Model/Worker.v`, restricted: a client may be code on the thread of a sink or of the worker, and that
thread goes on only when the call has returned.  All safety theorems of C05-C11 carry over (every execution is one of the worker model).
* **C87** proved; **C88** and **C89** refuted with permanence theorems (the deadlock persists in every continuation); **C90** refuted
  (a thread joins itself), proved if the own handle is not used.
* Assumed: `std::thread::join` of the own thread throws; signals interrupt threads between the steps of the model.

### Global life cycle (`Model/Global.v`)
Modelled: the globals and functions of `g3log.cpp`, any number of threads with stacks of activities (fatal events
nest inside hooks and handlers, exceptions unwind to try blocks).  One API call is one step, except
`saveFatalMessage`, which is cut at the points where client code or other threads matter.  Invariant `GInv` relates
every reachable state to folds over the history of calls (`Spec/GlobalSpec.v`).
* **C19** refuted for histories with an earlier initialization; exact positive theorem for the first round; at-most-once always.
* **C20** (hang at exit refuted when a static object owns a worker), **C21**, **C22**, **C26** from the invariant.
* **C23** hook-run counting invariant for one thread; **C75** refuted for two, and bounded by the number of threads that are between copying and resetting the hook at the same moment (Proofs/HookFacts.v); **C24** refuted (successive, not nested, fatal events are also labelled recursive) + exact condition.
* **C25** refuted (the hook is an empty `std::function` before the first initialization) + positive theorem for after a hook was set; **C76** refuted for empty hooks and handlers, proved otherwise.

### Levels and macros (`Model/Levels.v`, `Model/Macros.v`)
* **C27** arithmetic; **C28**, **C29**, **C30** refinement of the sorted map to `Z -> option bool` by induction over operation sequences in which every LOG call uses a registered level; **C31** refuted (`operator[]` inserts), and the consequences for **C28/C29** shown by witnesses; **C32** listing = independent rendering of the sorted table, injective.
* **C69** refuted (unregistered levels are disabled), proved for registered ones. **C70** refuted (CHECK compares with `true`), with the exact condition.
* **C33** small evaluator for the macro expansions with an effect trace; parser for nested if/else.

### Time (`Model/TimeFmt.v`)
* **C34** digits; **C35** refuted for most pre-epoch times, with the exact condition; **C36** equality with a one-pass substitution; **C37** with a model of `strftime` for the conversions used; **C38** arithmetic on integers.

### Messages and capture (`Model/Message.v`, `Model/Capture.v`)
* **C39** longest separator-free suffix; **C40**, **C41** equality with independent layouts, recoverability; **C42** refuted for `overrideLogDetailsFunc`, proved for `toString(f)`; **C43** copy and move proved, assignment refuted; **C44** decimal round trip.
* **C45**, **C46** (refuted at exactly one length), **C47** (refuted for NUL bytes, proved otherwise), **C48**, **C49** over every outcome of `vsnprintf` (a parameter). **C71** refuted (conversion to int), proved within the int range.

### Files (`Model/FileName.v`, `Model/FileSink.v`)
* **C50**, **C51** (refuted for `/`, for names with backslashes, and for logger ids with slashes; proved otherwise), **C52**.
* **C53**–**C60** abstract POSIX file system with offsets and truncation, `ofstream` with an arbitrary internal spilling policy; invariants over all operation sequences and every crash point. C56, C57 and C58 expected false. **C72** (directory of a changed file) refuted, proved for a slash at the end.
* Assumed of the environment: opening succeeds or fails arbitrarily and yields any inode; writes to an open file
  succeed (a full disk is the subject of `Model/WriteError.v`); `isspace` on bytes above 127 is a parameter (`high`); names are cut at the first NUL byte.

### Signals and stack dump (`Model/Signals.v`, `Model/StackDump.v`)
* **C61** invariant over sequences of operations; **C62** refuted, with the exact extent of the harm; **C63** exit theorem (refuted inside the handler); **C64** interleaving model of handlers with nesting; **C73** refuted for nested signals, proved without nesting; **C74** refuted for failing writes; **C65** decision table; **C66**, **C67** (refuted for a frame text ending in `+`) string parsing; **C68** composition of the texts.
* Assumed of the environment: `sigaction` fails only for signals that cannot be caught; `raise` of a blocked signal returns;
  a demangler and the frame texts are parameters (NUL-free, shorter than 2^64-3).
* **C85** (`Model/CrashText.v`) the texts that the crash handlers write, against independent layouts and recoverability; **C86** the whole message of a crash.

### Windows (`Model/Windows.v`)
Modelled: `stacktrace_windows.cpp` and `crashhandler_windows.cpp` (neither `DISABLE_FATAL_SIGNALHANDLING` nor
`DISABLE_VECTORED_EXCEPTIONHANDLING`; for these see `Model/WinOptions.v`), with the answers of the Windows API as parameters.
* **C78** tables against an independent list; **C79** loops against a fold; **C80** counter and mutex as a transition
  system with nesting (refuted twice, exact condition); **C81** refuted on x86; **C82**, **C83** induction over call
  histories (both refuted in part); **C84** decision table.
* Assumed: `signal()` succeeds for the five signals; SIGFPE, SIGILL and SIGSEGV have a handler per thread, SIGABRT and SIGTERM
  one per process (Microsoft's library); handles of vectored handlers are not used again; the resetting of a signal's handler
  before it runs is left out.

### Data races (`Model/Races.v`)
Modelled: every function of the library that touches shared memory, as the sequence of its accesses (plain or atomic
reads and writes, lock and unlock, thread start and join).  A data race (`Spec/RacesSpec.v`) is a reachable state in which two
threads are about to access one location, one of them writes and not both accesses are atomic.
* **C91**, **C92** by a logic of fractional permissions (`Proofs/RacesFacts.v`): a thread may read with a share and write with all
  shares of a location, mutexes carry shares; sound for all schedules.
* **C93** exact: the calls race if and only if two of them conflict. **C94**, **C95** refuted by schedules, with what remains true.
* Simplified: schedules are interleavings (see the next section); a container is one location, a level's stored name and its status are two; once flags and magic
  statics are locks with a flag; waiting for futures, the destruction of the queue, and client code are left out; the
  number of wake-ups and of rounds of the worker's loop are parameters.

### Happens-before and the C++ memory model (`Spec/HappensBeforeSpec.v`, `Spec/WeakMemorySpec.v`)
No new model: the programs of `Model/Races.v`, other notions of execution and of race.
* **C134**: the events of an interleaving with happens-before as in [intro.races]; a data race is a pair of conflicting events that
  it does not order.  Equivalent to the races of the last section: an unordered pair with the first possible second event is
  brought together by dropping every event that happens before neither (`Proofs/HappensBeforeFacts.v`).
* **C135**: executions in which a read finds any write not hidden from it (`weak`); by induction along the execution, with C134 for each
  prefix, every read finds the last write.  The theorem in general needs that threads do not meet even with atomic accesses,
  except at locations whose values are not looked at (the switches of the levels); C92's permissions give that
  (`Proofs/WeakMemoryUse.v`).  The converse, all interleavings are executions, shows that `weak` is not too small.
* Trusted: that `weak` contains the executions of the standard.  Left out are the rules that only forbid executions (modification order,
  exclusive read-modify-write).  Every atomic of these programs is acquire/release or stronger; then a read's write happens before it
  or the execution has a race, so listing the actions in an order that respects happens-before loses nothing.
  `firstExit` (crashhandler_unix.cpp:55, relaxed) belongs to the signal handler and is not part of these programs.

### Signals inside library calls (`Model/Interrupt.v`)
Modelled: on top of the access model, a fatal signal delivered to any thread between any two accesses.  The handler
(`signalHandler`, `shouldDoExit`, and the path of the fatal message) replaces what the thread was doing; mutexes it holds stay held.
* **C96** refuted where the thread holds one of the three mutexes the handler needs; the effect of such a signal is proved for every
  continuation (queue frozen, handler waiting for itself); for every other moment the handler can always come to its end and the
  fatal message lies in the queue.  By an invariant relating owners and semaphores.
* Simplified: locks inside the C++ runtime (malloc, streams) are not modelled; the endless sleep of a second handler is a stop.

### From statement to file (`Model/EndToEnd.v`)
Modelled: the composition.  A program gives each log call of `Model/Worker.v` its statement (level, place, texts, time); `execute` runs it
through `Model/Capture.v`, `content` through saveFatalMessage and bgFatal, `ops_of` turns the callbacks of a sink's thread into calls of
`Model/FileSink.v`.
* **C97**, **C98**: from C05, C06, C08, C09, C13 (what a sink has received), C40/C41/C47/C49/C68 (what a message says) and C53 (what the file holds); new is that the
  sink cannot fail when the clock readings are sane, so the theorems are about total correctness.
* Simplified: one file sink at a time (several: C133); through the handle only `fileName()` and `overrideLogHeader()`, and in C111 `changeLogFile()`.

### Inside a statement (`Model/Statement.v`, `Model/Stamps.v`)
Modelled: client code as a tree of logging statements whose conditions and operands are again client code, that may assign the level variable, throw, or
make the stream fail; `exec` runs it to a list of events (level asked, LogCapture constructed, entry handed over) and an outcome.
`Stamps.v`: several threads whose statements read the clock and push in separate steps.
* **C99**, **C100**: mutual induction over code and operands; the trace is well nested (an inductive predicate), the k-th entry has the k-th clock reading.
* **C101**, **C102**, **C103** are false of the code; refuted with small programs, and proved for the cases in which they hold.
* **C104** (`Model/TimeFmt.v`): `render` is the specification, one pass from left to right; false of the code in three ways, and exact otherwise.
* Simplified: one level variable and one client function; the exception of an operand leaves no partial text of that operand; a fatal entry ends the
  process at once (what other threads do meanwhile is in `Model/Worker.v`); saveMessage itself does not throw.

### Sinks that throw or hang (`Spec/IsolationSpec.v`, `Properties/PIsolation.v`)

On `Model/Worker.v` and `Model/SharedQueue.v`, nothing new is modelled. A sink that hangs is one whose thread takes no step; "others" are the steps of
the worker and of the sinks that do not hang.

* **C105** is false of the code: a throwing receive function ends the process. Proved: nothing else calls std::terminate.
* **C106**: as long as only log and addSink requests are queued, every maximal run of the others is finite and ends with every other sink having
  received its whole window. False of the code when a hanging sink is removed.
* **C107**: the two steps of a LOG call are always enabled and nobody else's step changes where the call is; the holder of the queue's mutex is never
  blocked, by a decreasing rank.

### Infinite executions (`Spec/FairSpec.v`, `Properties/PFair.v`)
C12, C106 and others say what is so when the threads have come to rest. C131 says that things happen though they never come to rest.
An execution is an infinite sequence of states and actions of `Model/Worker.v`, with pauses, from a reachable state on.
A scheduler is fair to a thread if the thread is never left alone for ever while it can go on: from every time on, there is
a time when it takes a step or cannot. New calls by idle clients are not steps in this sense, so fairness never makes a client call.
C131 assumes fairness for exactly the threads it needs: the delivery of entries needs the worker and the sinks, no client;
a call needs in addition its own client. C131_exists constructs a fair execution from every reachable state, with clients that log
for ever, so the hypotheses can be met. Not covered: how long it takes. For the mutex inside a queue see the next section.

### Infinite executions of the queue (`Spec/QueueFairSpec.v`, `Properties/PQueueFair.v`)

C131 takes the queues as atomic. C136 is the same kind of statement one level below, for the model of `shared_queue` with its mutex
and condition variable (`Model/SharedQueue.v`). Two hypotheses: the scheduler is weakly fair to every thread, as above, and the mutex
starves nobody: if it is free again and again, no thread wants it for ever. `std::mutex` does not promise the second;
C136_unfair_mutex is an execution with a fair scheduler in which a `push` waits for ever.
That the mutex does become free again and again is proved, not assumed.
`Proofs/QueueCycle.v` builds infinite executions that repeat a finite list of steps; the examples are made with it.

### Infinite executions of the active object (`Spec/ActiveFairSpec.v`, `Properties/PActiveFair.v`)
C137 puts the active object of `Model/ActiveObj.v` on top: its executions contain executions of the queue (`q_exec`), fair ones if they are fair (`q_fair`), so
that C136 applies. A callback takes as long as it wants: its end is no step the scheduler owes; `callbacks_end` says separately that it comes.
`Base/Cycle.v` is `Proofs/QueueCycle.v` for any step function.

### Several sinks over the same files (`Model/SharedDisk.v`)
`Model/FileSink.v` has one sink and its files. Here any number of sinks, in one process or several, each with its own streams, use common
files. A schedule is any sequence of the file accesses of `FileSink.v`, each tagged with the number of a sink; which accesses a sink makes is
computed from its life (constructor arguments, calls, destructor) by the same functions as before. Which file an open yields is again up to the
environment; `by_name` says that a name always leads to the same file (nobody renames or removes). One access is indivisible; a stream that
hands its buffer to the file in portions can be modelled as several accesses.
C132 is false of the code: sinks with the same directory, prefix and id created within a second have the same name (C132_same_second), opening
empties the file (openLogFile uses ios::trunc), and then both write at their own positions into one file. Proved besides: what can be left of the
texts in a shared file, that sinks with a name in common agree in prefix, id and second, and that sinks with files of their own
are undisturbed in every interleaving.

### A worker with several file sinks (`Model/ManySinks.v`)
The file sinks of one worker on common files: what each has run is given by `Model/Worker.v`, the texts by `Model/EndToEnd.v`, the accesses by
`Model/SharedDisk.v`. Modelled besides: `addDefaultLogger` with its default id and the default flush interval.
* **C133** is false of the code: two default loggers with the same arguments within a second. Proved for sinks that keep apart, by C09, C13 and C132; C132_apart
  gives that for default loggers with different names.
* Simplified: the theorems allow every interleaving of the accesses of the sinks, also some that do not fit the execution of the worker.

### Before main (`Model/StaticInit.v`)

Modelled: the dynamic initialization of the static objects of loglevels.cpp, g3log.cpp, crashhandler_unix.cpp, logmessage.cpp and time.cpp and of any number
of files of the program.
Every file has its own copies of the level constants (loglevels.hpp). Within a file the order is that of the definitions; a run is any interleaving of the
files. What has not been initialized is zero: a level reads as 0, a `std::function` is empty; zero strings, maps and streams are undefined behaviour.

* **C108**: invariant over all orders: what is initialized has the value its definition says.
* **C109** is false of the code (FATAL of loglevels.cpp may still be 0); proved for runs that begin with the library's files, and exactly for single entries.
* **C110** is false of the code; proved once g3log.cpp is initialized.
* Simplified: one thread, no worker before main, initializers do not catch exceptions, hooks and handlers have no code of their own; for destruction see
  the next section.

### After main (`Model/StaticExit.v`)

Modelled: the destruction of the static objects of the same files and of filesink.cpp, in the reverse of the order of initialization, in one thread. Destructors
of the program may log, set the hook and the exit handler; an object may own a `LogWorker`, whose threads do their remaining work when it is destroyed. Reading
the `int` of a destroyed level is recorded but goes on; using a destroyed string, map, pointer or function is undefined behaviour.

* **C112** is false of the code (three ways); proved when the library's files come first (invariant: what is left to destroy is a suffix of what was built, and
  contains the library as long as an object of the program is left), and exactly for single entries in every order.
* Not modelled here: function-local statics (`kTruncatedWarningText`, `fatalExitReason` and the like: initialized at their first use, so destroyed early), `exit` called from another thread, `quick_exit`.

### Changing the file while logging (`Spec/RotationSpec.v`, `Properties/PRotation.v`)

* **C111**: as C97 and C98, with calls of `changeLogFile` among the jobs of the sink. `change_total` shows that such a call neither throws nor
  leaves the sink without a stream; C55 (the history of several files) then replaces C53.

### The life of a process (`Model/Lifecycle.v`)

Modelled: Model/Global.v and Model/Signals.v run together. One step is a step of a thread (the first `initializeLogging` installs the crash handler), a call that sets up
signals, a signal, an uncaught exception (`std::terminate`, `abort`, SIGABRT), or the worker's ending of the process.

* **C113**: invariant: the signal table is what the client's calls and at most one installation, at the place of the first initialization, have made it.
* **C114**: from the crash on, a record of where the crashing thread is (with the number of steps it still needs) is kept by every step of the others;
  C63 then gives the ending.
* Simplified: signals come between the steps of Model/Global.v (inside: `Model/Interrupt.v`); a blocked signal is lost; what the worker still writes is C97 and C98.

### Memory runs out (`Model/Exhaustion.v`)

Modelled: every place on the way of a message (statement, hand-over, queue, worker, `addSink`, `initializeLogging`, `createActive`) that may allocate is a call of
`alloc`, which throws when the oracle `mem` says so; an exception keeps the variables as they are at that moment. `std::lock_guard`, `std::call_once`, `std::packaged_task`,
`noexcept` destructors and `operator<<` (which swallows exceptions and sets badbit) behave as the C++ standard says.

* **C115**: pieces of code that change nothing before they throw (`quiet`) are passed one by one; run theorem by induction over the actions.
* **C116**: pieces that change only hook, counter and first stack trace (`frames`); then the queue.
* **C117**: invariant: a sink registered once has been sent what the worker took. **C118**: invariant: a finished addSink task has registered its sink.
* **C119, C120**: case distinction.
* A sink that is destroyed (`~Sink`, on the way of an exception or in `bgFatal`) sends its last job, which allocates too; an exception from there ends the process.
* Simplified: each action of a client thread is one step; one worker; hooks and sinks do not allocate; `installCrashHandler` and `exitWithDefaultSignalHandler` do not fail.

### Removing sinks and the destructor when memory runs out (`Model/Dismantle.v`)

Modelled: `removeSink`, `removeAllSinks`, `addSink` and `~LogWorker` with the worker's queue, the futures that the calls wait for, the owners of a sink (the list, a waiting
`addSink`), and the destructors of `Sink` and `Active`, which send their last job; every place that may allocate is a call of `alloc`, as in `Model/Exhaustion.v`.
`must` is code that an exception may not leave (destructors, the thread function).

* **C125, C126**: every action that does not end the process is one of 29 memory-free effects (`eff`); invariant over these (numbers of calls, who waits for which job, when the
  worker's thread may have ended); then properties kept by all effects: `lost` (no handle and none to come), `awaiting` (the sink's removal is queued, or it is gone),
  `hears` and `fades` (what a sink was sent and what is queued for it). Returning with enough memory: induction over the queue.
* Simplified: see the head of the file; in particular each call is one step up to its wait and one after it, and a sink does what it was sent before it is joined.

### Writing fails (`Model/WriteError.v`)

Modelled: the calls of the file sink with the file accesses of `Model/FileSink.v`, on streams that have a state: a write may fail, accepting any part of the buffer
and keeping any piece of the text that begins no later than the first byte not accepted; from then on `operator<<` does nothing; closing tries again. The oracle
`faults` decides about every access.

* **C121**: invariant of a failed stream (`broken`); recovery by embedding the fault-free streams of `Model/FileSink.v` (`emb`) and the invariant of C55.
* **C122**: lockstep of the runs with and without faults (`alike`); files never opened: invariant.
* **C123**: lockstep (`Sim`) with a relation between whole text, file and buffer, instantiated twice (`J_pt`: no gaps; `J_pre`: exact beginning).
* Simplified: opening succeeds or fails as in `Model/FileSink.v`; writes to stderr are left out.

`Model/FaultyDisk.v` has several such sinks on common files, each with an oracle of its own.

* **C138**: in every interleaving a sink with files of its own does what it does alone (`fworld_alone`), and without faults what it does in
  `Model/SharedDisk.v` (`healthy_run`); C123 for the sinks with faults, C133 for what the worker has sent them.

### The report of a fatal event on Windows (`Model/WinReport.v`)
From `signalHandler`, `exceptionHandling` or the macros to the message of the sinks: the choice of the dump (`internal::stackdump`), the number of the event, which is
an `unsigned long`, passes through an `int` and is an `unsigned long` again, `reason()` with the Windows `exitReasonName`, `bgFatal`.

* **C140**: by the lemmas of C97 for the message, C78 for the names. Taken for granted: `int` and `unsigned long` have 32 bits; time formatting as in `Model/TimeFmt.v`.

### `packaged_task` for old Visual C++ (`Model/TaskPatch.v`)
The members of the class of `stlpatch_future.hpp` over variables, promises and shared states; beside it the class of the standard (`Spec/TaskPatchSpec.v`).
The code is compiled only by Visual C++ up to 2013, which cannot compile the rest of g3log any more.

* **C139** is false of the code: exceptions of the function leave `operator()`, a second call runs the function again, `reset` forgets the function. Proved: lockstep
  (`R`) for every use without errors; shared states that only the replacement has are private.
* Left out: `swap` (does not compile when used), functions that use the task they are in.

### When the fatal signal does not end the process (`Model/AfterRaise.v`)
The tail of `exitWithDefaultSignalHandler`: `raise` returns (process 1, ignored signal, a handler of the program that returns), `gBlockForFatal` is unset, `exit` destroys
the static objects on the background thread, while threads in the loops of `signalHandler` and `pushFatalMessageToLogger` wake up.  Any number of threads and sinks, sinks
with a queue each; whether a raised signal kills is a parameter, the static objects are a list that tells which own the worker.

* **C141** is false of the code in four ways (see its note).  Proved: an invariant over all runs with one fatal event or only signals (`inv`: logging, fatal entry queued,
  clearing, before `raise`, killed, in `exit`), and an independent one for runs where every signal kills.
* Left out: LOG while static objects are destroyed (C112), signals inside a fatal call (C73), fatal events on sink threads (C89); `exit` called twice is undefined.

### A process on Windows (`Model/WinLife.v`)
`Model/Windows.v` has the handlers one call at a time.  `Model/WinLife.v` puts them together with the logger: threads that
log, call LOG(FATAL), raise signals and have exceptions; the loop of `pushFatalMessageToLogger`; the queue of the background
thread, `bgSave`, `bgFatal` and the clearing of the sinks; the way Windows searches for a handler (vectored handlers in order,
frames of the program, filter for unhandled exceptions).  An ending of the process is a signal, an unhandled exception or
undefined behaviour (the null `g_logger_instance`).  Entries are numbers (their texts are C85), a fatal call is one step up to
the loop (the races inside it are C94), client's handlers let the search go on, the model begins after the first
`initializeLogging`.  C127: exceptions the program handles; C128: fatal calls do not return; C129: after a shutdown; C130:
exceptions of whatever thread go on after the flush.  The invariants: while no exception reaches g3log every fatal message in
the queue is one that kills, and the flag `gBlockForFatal` is set; a thread in the loop stays there until the background
thread unsets the flag, which it cannot when it waits itself or has to join the waiting thread.

### The build options of the Windows library (`Model/WinOptions.v`)
The same process with `ENABLE_FATAL_SIGNALHANDLING` and `ENABLE_VECTORED_EXCEPTIONHANDLING` as parameters (`opts`); C142_default proves that both on is
`Model/WinLife.v`.  Without signal handling `restoreFatalHandlingToDefault` is empty, so nothing takes the filter and the vectored handler away.
* **C142** (signal handling off): frame theorem for the handlers of signals, then over runs; what the end of a fatal call does, exactly; false for a
  program with a SIGABRT handler that returns (hang) and for every documented exception that nobody handles (the null logger is used).
* **C143** (vectored handling off): no vectored handler of g3log in any run, hence handled exceptions change nothing; an invariant with three phases
  (queued, clearing, done) for all schedules after one fatal message, for all options; false for two threads.
* As in `Model/WinLife.v`; in addition the C library sets a handler of the program back before it runs it.

### The atomic variables under the C++ memory model (`Model/Atomics.v`)

The other models of threads interleave steps, so every thread sees one memory.  Here the library's atomics (`firstExit`, `g_fatal_hook_recursive_counter`,
`gBlockForFatal`, the switch of each level) are looked at in the executions C++17 allows: events, *sequenced before*, *reads from*, modification orders,
release sequences, *synchronizes with*, *happens before*, the four coherence rules and the atomicity of read-modify-writes.  The order of each operation
is the code's: relaxed for `firstExit`, acquire and release for the switches.  Left out: the total order of sequentially consistent operations (they
count as acquire/release, which allows more executions), fences (the code has none), consume.  Other synchronization is an arbitrary relation between events.
C144: `firstExit` and the counter of fatal events.  C145: the switches and `gBlockForFatal`.  `Proofs/AtomicsCheck.v` decides that a concrete
execution is consistent; it is used for examples only.  The plain data of a level (its text, assigned by `set`) races, see C93 and C135.

### The build options (`Model/BuildOptions.v`)

`Options.cmake` and `GenerateMacroDefinitionsFile.cmake`: from the options (nine that have definitions) and the platform to the text of
`generated_definitions.hpp`, with CMake's lists (texts with semicolons) and its unquoted arguments, and on to what the preprocessor makes of that text
(comments, `#define`), the check of `loglevels.hpp`, the name of the debug level and of the function.  C146 is about every choice of options, every
earlier content of the file and every set of macros of the program.  What the macros change in the library is in the other models (`disabled` in
`Model/Signals.v`, `opts` in `Model/WinOptions.v`, the dynamic levels in `Model/Levels.v`, the message size in `Model/Capture.v`, the file name in `Model/Message.v`).

## 3. Trusted base *(status)*
* The Coq kernel (and `coqchk`).
* `Print Assumptions` for every theorem: "Closed under the global context" (checked by the build log).
  `coqchk` additionally lists seven constants `Coq.ssr.ssrunder.Under_rel.*` as axioms of loaded libraries:
  they come with the standard library's `lia`/`zify` (a sealed module), and no theorem here depends on them.
* The reading of the C++ code embodied in `theories/Model` (each definition cites its source) and the
  library/OS behaviour it assumes: `std::string`, `std::map`, `std::function`, `std::packaged_task`,
  `shared_ptr`, mutex/condition variable, `vsnprintf`, `strftime`, `sigaction`/`raise`, file writes.

## Seeded errors (`seeded/LOG.jsonl`)
Each line is one wrong program: a definition of the model edited in a scratch copy, and the whole development built against it (without the
Examples, so that only theorems count).  `edit` gives old and new text, `claim` the properties that the edit makes false, `first_failures` what
was seen to fail, `theorems_failed` the theorems among these and those that depend on a lemma among these.  `result` is `caught`, `caught after
tightening` (the edit survived once, `tightened` names the theorems stated more exactly, and the edit was then seen to fail), `caught, after an
earlier run that did not` (the edit survived an early run and was caught by a later one; which change made the difference was not recorded) or `no claim false`
(the edited program is the same, or differs where no claim is made; `claim` says why).

## 4. Not modelled *(status)*
* The thread renaming and the file-name parts under `#ifdef` for Windows, other than those in `Model/Windows.v`, `Model/WinLife.v`, `Model/WinOptions.v` and `Model/WinReport.v`.
* The C++ memory model for uses other than the documented one. C134 and C135 cover the documented use, C144 and C145 the atomic variables of the library in any use;
  for plain variables in other uses C91 to C95 say where the races are.
* Memory exhaustion other than in `Model/Exhaustion.v` and `Model/Dismantle.v`.
* Compile-time configuration: the generated header is modelled (C146), and so are the options that change what the library does (dynamic levels, full file names,
  dynamic message size, fatal signals, vectored exceptions, the name of the debug level). Not: `G3_SHARED_LIB`, `CHANGE_G3LOG_DEBUG_TO_DBUG` inside the tests, packaging and
  installation.
* Examples, tests and benchmarks. `stlpatch_future.hpp` (`Model/TaskPatch.v`) is compiled only by MSVC 2013 and older, which cannot compile the rest (C++17).
