n("C42", "partial", "False of the code as stated (C42_refuted: overrideLogDetailsFunc does not affect toString() called without argument). Proved: toString(f) uses f; exactly where the override is visible.")
n("C43", "partial", "False of the code for assignment (C43_refuted: swap leaves out the full file path). Copy and move construction are proved; C43_assignment_keeps_the_rest_partial says what assignment does keep.")
n("C46", "partial", "False of the code at exactly one length (C46_refuted: text of length max loses its last character silently). Proved for all other lengths, and the bound for all; C46_two_kilobytes_partial says it with the documented default of 2 KB.")
n("C47", "partial", "False of the code for texts with NUL bytes (C47_refuted). C47_text_up_to_first_nul is the exact behaviour, C47_text_arrives_partial the NUL-free case.")
n("C70", "partial", "False of the code (C70_refuted: CHECK(2) fires). C70_check_passes_iff_one is the exact behaviour for every integer.")
n("C71", "partial", "False of the code (C71_refuted: sizes beyond INT_MAX are converted to int). Proved for all sizes within int. C71_statement_partial carries the three cases (a text that fits, a size that became negative, size 0) through a whole LOGF statement.")
n("C50", "proved", "For prefixes shorter than npos = 2^64-1 (any string that can exist).")
n("C51", "partial", "False of the code (C51_refuted: root directory, directory ending in a blank, backslashes, logger id with a slash). Proved for all other directories and slash-free ids; C51_exactly_partial: for a name without slashes exactly these directories work.")
n("C56", "partial", "False of the code (C56_refuted: after a change the header is written to the old file). Proved: what each file does start with.")
n("C57", "partial", "False of the code (C57_refuted: a change within the second of the creation reopens and empties the same file). Proved for changes that open files not used before; C57_same_file_partial says exactly what is left of a file opened again.")
n("C58", "partial", "False of the code (C58_refuted: flush interval 0; both opens fail in a release build). All other configurations proved free of undefined behaviour for every call sequence.")
n("C72", "partial", "False of the code (C72_refuted: the directory is used as a text prefix). Proved: the file lies inside exactly for directories that end in a slash and for the empty one.")
n("C61", "proved", "For sequences in which no signal is installed twice (C62 is the excluded case) and clients leave g3log's signals alone.")
n("C62", "partial", "False of the code (C62_refuted; C62_refuted_by_early_override: overrideSetupSignals before initializeLogging makes a later fatal signal hang the process). C62_harm_partial: exactly which signals are affected.")
n("C63", "partial", "False of the code inside the handler of a signal while logging is not initialized (C63_refuted: exit code instead of death by signal). Proved otherwise.")
n("C64", "proved", "For fewer than 2^64-1 signals.")
n("C66", "proved", "For frame texts that do not make the code throw (C67).")
n("C67", "partial", "False of the code (C67_refuted). C67_throws_iff_partial is the exact condition.")
n("C73", "partial", "False of the code (C73_refuted: a second signal in the same thread before the hand-over blocks everything for ever). Proved for signals that do not nest.")
n("C74", "partial", "False of the code if write() fails (C74_refuted: 2^64-1, exactly then: C74_failed_partial). Proved for every successful write.")
n("C19", "partial", "False of the code for the first message lost after a shut-down (C19_refuted). Proved: exactly the first message logged before the first initialization is delivered, once; this is the documented behaviour if there was one.")
n("C20", "partial", "False of the code if a static object owns a LogWorker: std::exit is called with the mutex held and hangs (C20_refuted). Proved: exactly when the exit hangs, that otherwise the process exits with failure, and that the active logger is never replaced.")
n("C21", "proved", "API calls are atomic steps of the model; races inside calls are the subject of C15.")
n("C22", "proved", "API calls are atomic steps of the model; races inside calls are the subject of C15.")
n("C23", "proved", "For any nesting in one thread; several threads: C75.")
n("C24", "partial", "False of the code: it also warns after successive, not nested, fatal events (C24_refuted), and can quote the stack trace of an old event (C24_refuted_stale_trace). The exact condition is proved, and that nested events are warned about.")
n("C25", "partial", "False of the code: the hook is empty before the first initialization, so std::bad_function_call ends the process and nothing is written (C25_refuted). Proved when a hook is in place: the one that does nothing, or one of the client that logs and returns.")
n("C26", "proved", "The step of the hand-over, in every reachable state, and that no other step hands over anything.")
n("C68", "proved", "For texts without NUL characters.")
n("C75", "partial", "False of the code (C75_refuted). Proved: for each setting no more runs than the greatest number of threads that are between copying and resetting the hook at the same moment, so at most once if fatal events keep apart there, and never more often than there are threads. One thread: C23.")
n("C76", "partial", "False of the code for an empty hook or handler (C76_refuted, C76_refuted_handler). Proved for non-empty ones.")
n("C01", "proved", "Every mutex, condition variable and container step of every operation is a step of the model.")
n("C02", "proved", "No lost wake-up is an invariant plus a bound on the number of internal steps; infinite executions under a fair scheduler are C131, with the queue as an atomic FIFO.")
n("C77", "partial", "False of the code for 2^32 items or more (C77_refuted: size() is 0). Proved for empty(), and for size() modulo 2^32.")
n("C03", "proved", "The background thread, the clients and every step inside the queue are modelled. A callback passed to send that throws ends the process; the claims hold up to then.")
n("C04", "proved", "Callbacks that throw end the process; sends that are under way when the destructor returns touch freed memory in C++ and are outside the claim.")
n("C16", "proved", "A task queued behind the shutdown request is destroyed unexecuted: its future reports broken_promise.")
n("C05", "proved", "The worker's requests and the sinks' callbacks are atomic steps here; that Active hands them over in order, once each, is C01-C04.")
n("C06", "proved", "A message is (thread, number of the log call in that thread).")
n("C07", "proved", "")
n("C08", "partial", "False of the code in one corner (C08_destroyed_refuted): a client gives up its pointer while the worker has locked the sink for a second, concurrent removeSink of the same sink. Proved: not registered (C08_unregistered), and everything else if in addition nobody is just destroying or removing that sink.")
n("C09", "partial", "False of the code for sinks that a client also holds (C09_flush_refuted): their messages are queued, not yet received. Proved for all other sinks, with the end of the worker thread.")
n("C10", "proved", "")
n("C11", "proved", "Executions on a sink that is still alive; that pending calls come to an end is C12_bounded with C11_eventually.")
n("C12", "proved", "Callers are ordinary threads. A receive function that throws ends the process (std::terminate).")
n("C13", "partial", "False of the code for sinks that a client also holds (C13_flush_refuted). Proved for all other sinks; a sink that is held has all of it in its queue (C13_sent_partial).")
n("C14", "partial", "False of the code (C14_flush_refuted): the second fatal call finds no active logger and ends the process. Proved: everything before the first fatal message has been sent to the sinks' queues.")
n("C15", "partial", "False of the code (C15_safe_refuted): the pointer is checked and used in two steps. Proved: only then, and never without fatal events and shut down.")
n("C17", "proved", "unique_ptr cells; the steps inside the queue are atomic here (C01). Which of copy, move or nothing happens at each hand-over is arbitrary.")
n("C18", "proved", "std::string owns its characters; the sinks stay registered (registration is C05-C08). Messages are those that constructors and writers can build.")
n("C78", "proved", "The answers of the operating system's headers (the codes) are constants of the model.")
n("C79", "proved", "StackWalk64 and the symbol functions are parameters.")
n("C80", "partial", "False of the code in two ways: the counter is never decreased, so the third dump of a thread is called recursive although nothing nests (C80_sequential_refuted); the first nested crash locks a std::mutex that the thread owns (C80_nested_refuted, C80_nested_locks for all states). Proved: at most two dumps per thread, the exact condition of the notice, exclusion between threads.")
n("C81", "partial", "False of the code on 32-bit x86 (C81_refuted, C81_x86: AddrPC is assigned three times). Proved for the other architectures.")
n("C82", "partial", "False of the code after a restore (C82_refuted, C82_never_again: the per-thread flag is never reset). Proved for the first LOG call or installation of a thread.")
n("C83", "partial", "False of the code for two installations, for client signal handlers and for other threads (C83_twice_refuted, C83_signal_refuted, C83_thread_refuted). Proved for filter and vectored handlers with one installation.")
n("C84", "partial", "False of the code for numbers that are no signal (C84_refuted, C84_other). Proved for the five signals, for exceptions and for the vectored handler.")
n("C85", "proved", "Texts without NUL characters (the dump).")
n("C86", "proved", "")
n("C87", "proved", "C87_released needs that calls on library threads do not wait for other threads; logging never does (C87_log_returns). Assumes that nobody deactivates the logger between its check and its use (C15).")
n("C88", "partial", "False of the code: removeSink from the sink's own receive function deadlocks (C88_remove_refuted, C88_self_removal), every management call on the worker's thread hangs (C88_worker). C88_deadlock gives the general shape. For clients with threads of their own see C12.")
n("C89", "partial", "False of the code on sink threads (C89_sink_refuted; C89_sink: in general) and on the worker's thread (C89_worker for all executions). For clients with threads of their own see C13.")
n("C90", "partial", "False of the code: the thread joins itself and std::terminate is called (C90_refuted). Proved if code on the sink's thread does not lock a handle to that sink (C90_partial).")
n("C91", "proved", "Interleavings; C134 and C135 extend it to happens-before and the C++ memory model. Accesses to the queue's contents are one location.")
n("C92", "proved", "Interleavings; C134 and C135 extend it to happens-before and the C++ memory model. Receive functions and other client code are not modelled.")
n("C93", "partial", "False of the code (C93_refuted). C93_races_iff_conflict gives the exact condition; C93_log_while_switching: one thread may switch levels while others log with known levels.")
n("C94", "partial", "False of the code for the worker pointer, the saved first message, the hook and the exit handler (C94_refuted). Proved for the first stack trace and the counter of crashes (C94_partial), and for the documented order of calls (C92).")
n("C95", "partial", "False of the code together with initializeLogging and fatal messages (C95_refuted). Proved for overrideSetupSignals alone (C95_override_race_free).")
n("C96", "partial", "False of the code when the interrupted thread holds the queue's mutex, the mutex of the hook or the guard of the first stack trace (C96_refuted; what follows for every execution: C96_queue_stuck, C96_self_deadlock). Proved for all other moments (C96_partial, C96_reported_partial). A later fatal signal is not reported (C96_later_signal). Locks inside the C++ runtime are not modelled.")
n("C97", "proved", "Composition of the models of capture, worker and file sink; handle calls may ask for the file name and set the header. Sinks owned by clients are the subject of C08 and C09, texts with NUL bytes of C47, changing the file of C55.")
n("C98", "proved", "As C97. The text added when it is not the first fatal event is a parameter here; C24 says when it is added.")
n("C99", "proved", "A saveMessage that throws (out of memory) is not modelled; a file name of 2^64 bytes would make it throw in the model.")
n("C100", "proved", "For levels given as constants; C99 and the time stamps for all code.")
n("C101", "partial", "False of the code: the level expression is evaluated twice and the LogCapture keeps a reference to it. A call that returns different levels writes an entry of a disabled level, and an assignment while streaming gives a fatal entry without stack dump (refuted). Proved for constants and for variables that the statement does not assign. C101_variable_partial: with a variable the entry has the value that it holds at the end of the statement.")
n("C102", "partial", "False of the code: after an operand that makes the stream fail (such as a null const char*) the later operands are silently lost (refuted). Proved: when no printable operand comes after a failing one, all text is there.")
n("C103", "partial", "False of the code: the clock is read before the message is queued (refuted with two overlapping statements). Proved: per thread, for statements of different threads that do not overlap, and that the order is never wrong by more than the longest time between the reading of the clock and the push; C103_sinks_partial takes this on to the sinks.")
n("C104", "partial", "False of the code: an empty rendering aborts a debug build, a rendering of 1024 bytes or more is replaced by the format, and %%f is not respected as an escape (refuted). Proved exactly for all other formats.")
n("C105", "partial", "False of the code: the exception ends the process by std::terminate, and the message that another sink still has in its queue is lost (refuted). Proved: std::terminate comes from a throwing receive function only; exceptions of functions called through handles go to their futures (C11_throws).")
n("C106", "partial", "False of the code: when a hanging sink is removed, or at shutdown, the worker waits for it and no other sink gets anything any more (refuted with removeSink; C106_held_up_partial: in general). Proved for all schedules in which only log and addSink requests are queued.")
n("C107", "proved", "Starvation by an unfair mutex is not excluded: std::mutex promises no order. A logger that is shut down or destroyed between the two steps is C15.")
n("C108", "proved", "Also: once a file is initialized, all its levels have values. C108_ex_other_file shows the undocumented use (a level of another file) going wrong.")
n("C109", "partial", "False of the code: in a file that is initialized before loglevels.cpp, FATAL.value is still 0, so every LOG is fatal, and terminates the process because the hook is empty; with G3_DYNAMIC_LOGGING the level table is used before it exists (refuted). Proved: nothing is used too early when the library's files are initialized first, and the exact outcome of an entry in every order, fatal ones included, and the order of g3log.cpp's own objects.")
n("C110", "partial", "False of the code: the initialization of g3log.cpp puts the default handler back (refuted). Proved: once g3log.cpp is initialized, the handler stays.")
n("C111", "proved", "Every file is opened at most once (a hypothesis: the second opening of a file truncates it) and the clock is sane. Which file has a line is not claimed: an entry still in the buffer when the file is changed goes to the new one (C111_ex).")
n("C112", "partial", "False of the code: objects of a file that is initialized before the library are destroyed after it; their destructors then log into the destroyed g_first_uninitialized_msg or look into the destroyed level table, and a worker they own formats its last entries with destroyed strings (refuted). Proved: nothing is used too late when the library's files are initialized first, the exact outcome of an entry in every order, fatal ones included, and the order in which g3log.cpp's objects go. Function-local statics are not modelled.")
n("C113", "proved", "Signal set-up calls are single steps (their races: C95). C113_ex_restored: a signal given back by the client stays given back after another initialization.")
n("C114", "proved", "Hypotheses: g3log's own exit handler, no fatal event before, the client has installed nothing twice (else C62), the others only log, and no second signal at the crashing thread (else C73). If the event would not have ended the process, it exits with the number of the signal. A crash without a worker in service is C63 and C114_ex_gone.")
n("C115", "partial", "False of the code: operator<< swallows the failed allocation, so the entry is logged with its text cut short and LOG returns; before initialization a statement that throws leaves its entry behind, with empty text, or a later one takes its place (refuted). Proved: while logging is active it is all or nothing, with a text that is a part of the whole one (the whole one if the stream got its memory), and over all runs the worker is given exactly the entries of the statements that came through; with enough memory the first statement before initialization is the one that is kept and told.")
n("C116", "partial", "False of the code: LOG(FATAL) throws and the program goes on, the hook is gone without having been called, and the next fatal event falsely reports a recursive crash (refuted). Proved: a fatal statement never returns; if it throws, queue, sinks and logger are unchanged; once its message is in the queue the worker ends the process, by the signal or by terminate; with enough memory the hook is called once and the message is whole, with the recursion warning exactly from the second event on; setFatalPreLoggingHook is all or nothing and the new hook is the one called.")
n("C117", "partial", "False of the code: an exception on the worker's thread ends in std::terminate and everything in the queue is lost (refuted). Proved: up to then every sink has got what the worker took, in order and without gaps, except at most the last entry.")
n("C118", "partial", "False of the code: the exception of push_back stays in a future that addWrappedSink only waits for, so addSink returns a handle of a sink that is not registered; and if the handle cannot be allocated addSink throws although the sink is registered; and an exception that destroys the new sink on its way ends the process if the destructor finds no memory either (all refuted). Proved: addSink that throws before its wait leaves everything as it was; the exact outcome of its last part; with enough memory a sink whose addSink returned is registered, in every run.")
n("C119", "partial", "False of the code: the kept entry is moved out before it is saved and is lost when saving throws (refuted). Proved: apart from that entry nothing changes, without such an entry the call does not throw, and a call that returns has handed over the entry and switched logging on.")
n("C120", "partial", "False of the code: ~Active of the half-made object joins a thread that was never started, which throws out of a destructor: the process ends by std::terminate (refuted). Proved: the exact outcome in all cases; it throws only when there is no memory for the object itself.")
n("C121", "partial", "False of the code: nobody looks at or clears the state of the stream, so after one failed write every later message is lost, to the end and without notice (refuted). Proved: from then on the file gets nothing but pieces of the text its stream had kept; changeLogFile to another file helps, the new file holds everything from the change on and the messages still waiting in the sink.")
n("C122", "proved", "That nobody is told is the other side of it: the run with errors cannot be told from the one without.")
n("C123", "partial", "False of the code with a stream library that keeps its whole buffer after a partial write, as libstdc++ does: closing writes the accepted bytes again (refuted). Proved for every library: a beginning, possibly followed by pieces again, without gaps; exactly a beginning if the library forgets what was accepted. No change may open the file in use (C57).")
n("C124", "proved", "C124_refines holds at every moment; C124_same_states is an equivalence for the moments at which nobody is inside an operation. Sequential consistency, as everywhere.")
n("C125", "partial", "False of the code: removeSink takes the handle by value, so when it throws the handle is gone while the sink stays registered and cannot be removed any more on its own; and the sink's destructor, on the worker's thread, needs memory and ends the process by std::terminate if there is none (both refuted). Proved: in every run, a removeSink that returns has removed and destroyed its sink, after a removeAllSinks that returned no sink is left that was registered at the call, a call that throws has changed nothing else, and with enough memory the calls do return.")
n("C126", "partial", "False of the code: the destructor needs memory and must not throw, so the process ends by std::terminate with accepted entries in the queue (refuted). Proved: in every run, if the destructor returns then every entry accepted before it has been taken, in order, each sink has been sent all from its registration on unless it was removed, the queue is empty and all sinks are destroyed; with enough memory and no fatal event waiting it does return.")
n("C127", "partial", "False of the code: the vectored handler takes every documented exception as fatal before the program's own frames are asked, so the sinks are destroyed and everything logged later is dropped (refuted; in general C127_documented, C127_dropped, C127_sinks). Proved: an exception that is not documented and that the program handles changes nothing.")
n("C128", "partial", "False of the code once an exception's message has been dealt with: its thread is to go on, and with it every waiting thread, for good (refuted twice); and two threads that abort end the process before anything is flushed, because the handler of SIGABRT is gone after its first call (refuted). Proved: what a fatal call and a fatal signal leave behind; as long as no exception gets to g3log no fatal call returns, and the background thread ends the process by the right signal.")
n("C129", "partial", "False of the code for exceptions: exitWithDefaultSignalHandler returns for them and the null g_logger_instance is used (refuted; C129_undefined and C129_filter say exactly when). Proved for LOG(FATAL), CHECK and the signals.")
n("C130", "partial", "False of the code for exceptions in the background thread and in the thread of a sink: the background thread waits for ever (C130_background, C130_sink; both refuted from the start of a program). Proved for the threads of the client, with g3log installed once (C130_once says when that is) and the threads of the sinks at work.")
n("C131", "proved", "Weak fairness, which for a sink includes that its receive function returns. The queues are atomic FIFO queues (C01-C04, C124); for the mutex inside see C136. No bound on the time.")
n("C132", "partial", "False of the code (C132_refuted: two sinks with the same directory, prefix and id created within one second, one after the other or overlapping, get the same name and the second empties and overwrites the file of the first). Proved: with files of their own (C132_apart: e.g. different prefix, id or second, in a file system without links) all sinks find their files as if alone in every interleaving; a shared file holds at each place a byte of at most one sink.")
n("C133", "partial", "False of the code (C133_refuted: addDefaultLogger called twice with the same arguments within one second while the program logs; the first sink's line is overwritten). Proved for sinks with files of their own, at shutdown and at a fatal event; for default loggers that differ in prefix, id or second without any hypothesis about files (C133_default_loggers); C133_runs: the sinks can always run; C133_default_file: name, place and flush interval of a default logger's file.")
n("C134", "proved", "The equivalence is about the existence of a race, not location by location (C134_same_location gives one direction for each location). Once flags and the start and end of threads count as mutexes do.")
n("C135", "proved", "A superset of the executions of the standard: a read finds any write that is not hidden from it by happens-before, and if it is not atomic one that happens before it; modification order and the exclusiveness of read-modify-write are not required. Atomics are release/acquire. Executions in which a value is read before it is written (out of thin air) are not included; the standard excludes them for these orders. C135_interleavings_allowed: all interleavings are included. C135_racing_differs: with races it is false.")
n("C136", "proved", "Both hypotheses are about the platform: weak fairness of the scheduler, and a mutex that starves nobody, which the standard does not promise (C136_unfair_mutex: without it a call of push may wait for ever, though the mutex is free again and again). C136_consumer_starved: with several consumers a single one may sleep for ever. Starts with an empty queue and all threads outside.")
n("C137", "proved", "Hypotheses about the platform and the client: weak fairness, a mutex that starves nobody, callbacks that end and do not throw. C137_hangs: with a callback that does not end, what follows is not executed and the destructor does not return; send still returns (C137_send_returns does not need that callbacks end). What a client sends while the destructor runs may come after the shutdown and is then not executed (C04).")
n("C138", "proved", "Hypothesis: no file is opened by two sinks (C132_apart gives it for default loggers with different names; without it C132 is false). For the content of the files of a failing sink: it opens no file twice (as C123). C138_others and C138_own do not mention the worker; C138_after_shutdown and C138_after_crash are for all that the worker has sent. Opening failures are in the calls of the sink (C55), not in the errors here.")
n("C139", "partial", "False of the code (C139_refuted): a function that throws, a second call, reset, and the future of a default-constructed task. C139_throws says for every spawned task that throws what happens instead. Proved: C139_same_partial for every program that the standard's class goes through without an error and without reset; C139_spawned_partial for spawn_task with any number of moves; C139_reset: what reset does in every state.")
n("C140", "proved", "Hypotheses: no NUL byte in the name of the handler and in a dump taken inside the logger, a date that can be formatted, codes of 32 bits. What recursion of fatal events adds to the text is the parameter warn (C24).")
n("C141", "partial", "False of the code: gBlockForFatal is unset before exit is called, so the thread of a failed CHECK goes on (C141_refuted); a worker that a static object owns makes exit wait for its own thread for ever (C141_hangs_refuted); a second signal's thread calls exit again, which is undefined (C141_twice_refuted); with two failed CHECKs a thread goes on before anything was flushed (C141_early_refuted). Proved: nothing of this happens when every signal kills; with one fatal event, or only signals, nobody goes on and nothing ends before the sinks have exactly the entries up to the fatal one; the exit code is the first event's signal; without such a static object the logger's threads alone always reach the end.")
n("C142", "partial", "False of the code: in a program with a handler of its own for SIGABRT that returns, LOG(FATAL) neither ends the process nor returns (C142_hang_refuted); with vectored exception handling a documented exception that nobody handles ends in a null pointer, in every run in which nobody sets another filter or initializes logging again (C142_exception, C142_exception_refuted). Proved: no handler is changed, in every step and run; LOG(FATAL) and CHECK never return and end the process in programs that set no handlers. C142_default: the model with both options on is that of C127-C130.")
n("C143", "partial", "False of the code with signal handling on when two threads have an exception each: the second ends the process while everything is still queued (C143_two_refuted; also in the default build). Proved: handled exceptions change nothing; what an unhandled one does; with one fatal message, for every schedule and all options, the process does not end before every sink has exactly what was logged before and the message (C143_flushed_partial). Hypothesis of C143_unhandled: g3log's filter is the current one.")
n("C144", "proved", "Sequentially consistent operations count as acquire and release only. The warning's decision is related to its fatal event by happens before. C144_initialized_between: with initializeLogging between two fatal events neither gets the warning.")
n("C145", "proved", "C145_buffering and C145_disagreeing: the executions that show that settings of two levels have no common order. The text of a level, which set assigns too, is plain data and races (C93).")
n("C146", "partial", "False of the code for the comment in loglevels.hpp: a program that defines CHANGE_G3LOG_DEBUG_TO_DBUG itself, with a library configured without that option, passes the check although its macro DEBUG replaces the name of the level (C146_define_refuted). Proved: everything else; the name of the level for programs that do not define CHANGE_G3LOG_DEBUG_TO_DBUG or G3LOG_DEBUG themselves (C146_named_partial).")
