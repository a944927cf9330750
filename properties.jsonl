{"id": "C01", "title": "The blocking queue is FIFO and neither loses nor duplicates items", "statement": "Items leave a shared_queue in exactly the order in which they were pushed; at every moment the items already popped followed by the items still inside are exactly the items pushed so far. No item is lost, duplicated or reordered.", "quantifier": "For every number of producer and consumer threads, every mix of push / wait_and_pop / try_and_pop calls, and every interleaving of their lock, condition-variable, notify and spurious wake-up steps.", "why_tests_cant": "A test samples a handful of schedules; loss or duplication depends on rare interleavings of lock, wait and notify.", "anchors": ["src/g3log/shared_queue.hpp: push, wait_and_pop, try_and_pop"]}
{"id": "C02", "title": "No pop on an empty queue and no lost wake-up", "statement": "wait_and_pop never removes from an empty queue, and a consumer is never left asleep forever while an item is available: whenever an item is queued and a consumer sleeps, some thread still owes a notification or an awake consumer is on its way to take an item, so the system is never stuck with work available.", "quantifier": "For every number of threads, every schedule, with spurious wake-ups allowed at any time.", "why_tests_cant": "Lost wake-ups show up as hangs under schedules that tests practically never produce; absence of a hang in a run proves nothing.", "anchors": ["src/g3log/shared_queue.hpp: push, wait_and_pop"]}
{"id": "C03", "title": "The active object runs callbacks one at a time, in send order, each exactly once", "statement": "Callbacks handed to Active::send are executed by the single background thread strictly one after the other, in the order in which they entered the queue, never twice; what has been executed is always a prefix of what has been sent.", "quantifier": "For every number of sending threads, every number of callbacks and every schedule.", "why_tests_cant": "Ordering and at-most-once execution are statements about all schedules.", "anchors": ["src/g3log/active.hpp: Active::run, Active::send", "src/g3log/shared_queue.hpp"]}
{"id": "C04", "title": "Destroying an active object drains it first and runs nothing afterwards", "statement": "When the destructor of Active returns, every callback sent before the destructor started has been executed, the background thread has ended, and no callback sent after the destructor's own shutdown request is ever executed.", "quantifier": "For every set of pending callbacks, every number of senders racing with the destructor, and every schedule.", "why_tests_cant": "Whether the tail of the queue survives a racing shutdown depends on the schedule.", "anchors": ["src/g3log/active.hpp: Active::~Active, Active::run"]}
{"id": "C05", "title": "A sink receives exactly the messages logged while it was registered, in order, once each", "statement": "The sequence of messages a sink has received is always an initial part of the messages that entered the worker after the sink's addition and before its removal (or removeAllSinks, or a fatal shutdown), in entry order; nothing from outside that window and nothing twice. Once its queues are empty the sequence is equal to the whole window.", "quantifier": "For every history of save / addSink / removeSink / removeAllSinks / fatal calls by any number of threads, any number of sinks, and every schedule of the worker and sink threads.", "why_tests_cant": "The claim quantifies over all interleavings of the client, worker and sink threads and unbounded histories.", "anchors": ["src/logworker.cpp: bgSave, bgFatal, addWrappedSink, save", "src/g3log/logworker.hpp: removeSink, removeAllSinks", "src/g3log/sink.hpp: Sink::send"]}
{"id": "C06", "title": "Each thread's messages reach each sink in that thread's program order", "statement": "If one thread logs message a before message b, no sink ever receives b before a.", "quantifier": "For every pair of messages of every thread, every sink, every schedule.", "why_tests_cant": "A reordering needs one unlucky schedule.", "anchors": ["src/g3log.cpp: pushMessageToLogger", "src/logworker.cpp: save, bgSave", "src/g3log/active.hpp"]}
{"id": "C07", "title": "All sinks see a common order", "statement": "If two sinks both receive messages a and b, they receive them in the same relative order.", "quantifier": "For every two sinks, every two messages, every schedule.", "why_tests_cant": "Disagreement between sinks is a property of all interleavings, not of a sampled one.", "anchors": ["src/logworker.cpp: bgSave"]}
{"id": "C08", "title": "removeSink is synchronous", "statement": "When removeSink returns, the sink is no longer registered, and if no client code holds its own shared pointer to the sink then the sink has already received every message logged before the removal was requested, its thread has ended, the sink object has been destroyed, and it is never invoked again.", "quantifier": "For every reachable state of worker, sinks and clients and every schedule.", "why_tests_cant": "'Never invoked again' is a claim about all continuations; the drain-before-destroy claim is about all schedules.", "anchors": ["src/g3log/logworker.hpp: removeSink", "src/g3log/sink.hpp: Sink::~Sink", "src/g3log/active.hpp"]}
{"id": "C09", "title": "Destroying the log worker flushes every sink first", "statement": "When the destructor of LogWorker returns, every message logged before the destructor began has been received by every sink that was registered for it and all sinks not also held by client code have been destroyed; the worker thread has ended.", "quantifier": "For every history of log and sink operations before destruction and every schedule, provided no other thread uses the worker once its destructor runs (the documented precondition).", "why_tests_cant": "Loss of the tail depends on the race between queue shutdown and pending work.", "anchors": ["src/logworker.cpp: LogWorker::~LogWorker", "src/g3log/logworker.hpp: removeAllSinks", "src/g3log/active.hpp"]}
{"id": "C10", "title": "A sink object is used by one thread at a time and never after its destruction", "statement": "A sink's receive function and the functions run through its handle execute only on that sink's own thread, one at a time; the sink object is destroyed at most once, only after its thread has ended and its queue is empty, and never touched afterwards.", "quantifier": "For every number of sinks, messages, handle calls and removals, every schedule, every ownership history of client-held shared pointers.", "why_tests_cant": "Use-after-free windows are schedule dependent.", "anchors": ["src/g3log/sink.hpp: Sink", "src/g3log/sinkhandle.hpp: call, sink"]}
{"id": "C11", "title": "A call through a sink handle runs exactly once on a live sink, or reports the sink is gone", "statement": "SinkHandle::call on a sink that still exists queues the call behind everything already queued at that sink and its future eventually receives the outcome of exactly one execution, even if the sink is removed meanwhile; on a sink that no longer exists the call is not executed and the future holds the bad_weak_ptr error. A call that throws delivers the exception in the future and does not stop the sink.", "quantifier": "For every history of calls, messages and removals and every schedule.", "why_tests_cant": "The race between call and removal has unboundedly many interleavings.", "anchors": ["src/g3log/sinkhandle.hpp: call", "src/g3log/sink.hpp: async", "src/g3log/future.hpp: spawn_task"]}
{"id": "C12", "title": "Sink management calls always return", "statement": "addSink, removeSink, removeAllSinks, handle calls and the worker's destructor never dead-lock: whatever the state, if client threads make no further calls then the background threads finish all queued work in a bounded number of steps and every thread blocked in one of these calls is released.", "quantifier": "For every reachable state with any number of blocked callers, every schedule of the background threads (callers being ordinary threads, not sink callbacks).", "why_tests_cant": "A test that terminates says nothing about the schedules it did not see.", "anchors": ["src/g3log/logworker.hpp: addSink, removeSink, removeAllSinks", "src/logworker.cpp: addWrappedSink, ~LogWorker", "src/g3log/active.hpp"]}
{"id": "C13", "title": "At a fatal event everything logged earlier is flushed before the process dies", "statement": "When the worker's fatal handling ends the process, every message that entered the worker before the fatal message, and then the fatal message itself, has been received by every sink registered at that point.", "quantifier": "For every number of threads, sinks and earlier messages and every schedule in which the process is ended by the worker's own fatal handling.", "why_tests_cant": "Requires reasoning over every crash point and every schedule; a crashing process is hard to observe in a unit test.", "anchors": ["src/logworker.cpp: bgFatal, fatal", "src/g3log.cpp: pushFatalMessageToLogger", "src/crashhandler_unix.cpp: exitWithDefaultSignalHandler"]}
{"id": "C14", "title": "The flush guarantee survives several threads failing at once", "statement": "If several threads hit fatal log calls concurrently, the process still does not end before the messages logged before the first fatal event have been flushed to the sinks.", "quantifier": "For every schedule of two or more failing threads.", "why_tests_cant": "Needs a specific race between two dying threads and the worker; no test produces it reliably.", "anchors": ["src/g3log.cpp: pushFatalMessageToLogger", "src/logworker.cpp: bgFatal", "src/crashhandler_unix.cpp: exitWithDefaultSignalHandler"]}
{"id": "C15", "title": "A LOG call is memory safe while another thread fails or shuts logging down", "statement": "A thread that is in the middle of a non-fatal LOG call while another thread's fatal event (or shutDownLogging) deactivates the logger either has its message saved or has it ignored; it never uses a logger that is gone.", "quantifier": "For every schedule of logging threads against the fatal handling of the worker.", "why_tests_cant": "The window is two machine instructions wide.", "anchors": ["src/g3log.cpp: pushMessageToLogger, isLoggingInitialized, shutDownLogging", "src/logworker.cpp: bgFatal"]}
{"id": "C16", "title": "A spawned task's future always reports one outcome", "statement": "spawn_task on a live active object yields a future that receives the value or the exception of exactly one execution of the task; on a null active object the task is not run and the future holds an error.", "quantifier": "For every task (value or exception) and every schedule.", "why_tests_cant": "Exactly-once completion is a statement about all schedules.", "anchors": ["src/g3log/future.hpp: spawn_task"]}
{"id": "C17", "title": "Wrapped messages have exactly one owner", "statement": "However often the move-on-copy wrapper around a log message is copied, moved or assigned on its way to the worker, exactly one of the wrappers owns the message; it is handed to the sinks exactly once and freed exactly once.", "quantifier": "For every sequence of copies, moves and assignments among any number of wrappers.", "why_tests_cant": "Ownership is an invariant over all copy histories, including those in library internals (std::function copies) which tests do not enumerate.", "anchors": ["src/g3log/moveoncopy.hpp: MoveOnCopy", "src/g3log/active.hpp: send", "src/logworker.cpp: save, bgSave"]}
{"id": "C18", "title": "Sinks cannot disturb each other's messages", "statement": "Each sink receives its own copy of a message: whatever one sink does to the message it received (it may edit the text), every other sink still receives the message exactly as it was logged.", "quantifier": "For every number of sinks, every message and every editing behaviour of the other sinks.", "why_tests_cant": "Aliasing is a universally quantified non-interference property.", "anchors": ["src/logworker.cpp: bgSave, bgFatal", "src/g3log/sink.hpp", "src/logmessage.cpp: LogMessage(const LogMessage&)"]}
{"id": "C19", "title": "The first message logged before initialization is kept and delivered once", "statement": "Of the messages logged while no logger is active, the first one is saved (marked 'LOGGER NOT INITIALIZED') and handed to the logger at the next successful initializeLogging, exactly once; later ones logged before initialization are dropped and nothing is delivered twice on re-initialization.", "quantifier": "For every history of LOG calls, initializations and shutdowns.", "why_tests_cant": "It is a property of all histories, including those with several initialize/shut-down rounds that one process-wide once-flag makes impossible to re-test.", "anchors": ["src/g3log.cpp: pushMessageToLogger, initializeLogging"]}
{"id": "C20", "title": "Initializing twice, or with no worker, ends the process and changes nothing", "statement": "initializeLogging succeeds only if no logger is active and the worker is not null; otherwise the process exits with failure and the active logger is not replaced. At all times at most one logger is active and it is the one of the last successful initialization not followed by a shutdown.", "quantifier": "For every history of initialize / shutdown calls and every worker identity.", "why_tests_cant": "A statement over all histories; the failing branch terminates the process.", "anchors": ["src/g3log.cpp: initializeLogging, isLoggingInitialized, shutDownLogging"]}
{"id": "C21", "title": "Destroying an inactive logger does not deactivate the active one", "statement": "shutDownLoggingForActiveOnly(w) leaves logging active, and returns false, if a different logger than w is active; otherwise logging is inactive afterwards and it returns true.", "quantifier": "For every state and argument, and every history.", "why_tests_cant": "All histories of several loggers.", "anchors": ["src/g3log.cpp: shutDownLoggingForActiveOnly", "src/logworker.cpp: ~LogWorker"]}
{"id": "C22", "title": "LOG calls are ignored while logging is shut down", "statement": "After shutDownLogging and until the next initializeLogging, non-fatal LOG calls hand nothing to any worker; every LOG made while a logger is active goes to exactly that logger.", "quantifier": "For every history of log, initialize and shutdown calls.", "why_tests_cant": "All histories.", "anchors": ["src/g3log.cpp: pushMessageToLogger, shutDownLogging"]}
{"id": "C23", "title": "The fatal pre-logging hook runs at most once, before the fatal message is handed over", "statement": "Each hook set by setFatalPreLoggingHook is run at most once; it runs at the next fatal event and before that event's message is passed to the fatal handler. A hook that itself triggers a fatal event cannot recurse into itself.", "quantifier": "For every history of hook settings, initializations and fatal events, every nesting depth of fatal events inside hooks.", "why_tests_cant": "Recursion depth and histories are unbounded.", "anchors": ["src/g3log.cpp: saveFatalMessage, setFatalPreLoggingHook, initializeLogging"]}
{"id": "C24", "title": "The recursive-crash warning tells the truth", "statement": "The warning about a recursive crash is attached to a fatal message exactly when a further fatal event happened while the hook of an earlier fatal event was running.", "quantifier": "For every history of fatal events and hooks.", "why_tests_cant": "All histories of nested and successive fatal events.", "anchors": ["src/g3log.cpp: saveFatalMessage"]}
{"id": "C25", "title": "A fatal event before initialization ends the process with its message on stderr", "statement": "LOG(FATAL), or a failed CHECK, made while no logger has ever been initialized writes the fatal message to stderr and ends the process through the default signal handling.", "quantifier": "For every fatal level, message and history that precedes the first initialization.", "why_tests_cant": "The path ends the process; the state involved (an empty function object) exists only before the first initialization in a process.", "anchors": ["src/g3log.cpp: saveFatalMessage, pushFatalMessageToLogger, g_fatal_pre_logging_hook"]}
{"id": "C26", "title": "An overriding fatal exit handler receives every fatal message instead of the default handling", "statement": "After setFatalExitHandler(h), each fatal event calls h exactly once with that event's message and the default handling is not run; before it, the default handling hands the message to the active logger.", "quantifier": "For every history of handler changes and fatal events.", "why_tests_cant": "All histories.", "anchors": ["src/g3log.cpp: setFatalExitHandler, fatalCall, saveFatalMessage"]}
{"id": "C27", "title": "A level is fatal exactly from FATAL's value upwards", "statement": "A level is treated as fatal if and only if its numeric value is at least that of FATAL; the three internal levels are fatal, the standard non-fatal levels are not; a custom level is classified by its value alone, never by its name.", "quantifier": "For every level value and text.", "why_tests_cant": "All integers and texts.", "anchors": ["src/loglevels.cpp: wasFatal", "src/g3log/loglevels.hpp"]}
{"id": "C28", "title": "Level filtering follows the last setting of each level", "statement": "After any sequence of addLogLevel / set / enable / disable / enableAll / disableAll / setHighest / reset calls, a LOG call at a registered level is let through if and only if the most recent operation concerning that level enabled it; getStatus reports the same and Absent for unregistered levels.", "quantifier": "For every sequence of operations and every level, where the LOG calls in between are made at registered levels (as loglevels.hpp requires; see C31 for what an unregistered one does).", "why_tests_cant": "All operation sequences over all integers.", "anchors": ["src/loglevels.cpp: set, enable, disable, enableAll, disableAll, setHighest, getStatus, logLevel, addLogLevel, reset"]}
{"id": "C29", "title": "setHighest splits the registered levels at the given level", "statement": "setHighest(L) for a registered L disables every registered level with a smaller value, enables every registered level with an equal or higher value, and does nothing if L is not registered.", "quantifier": "For every set of registered levels and every L, after every history whose LOG calls are made at registered levels.", "why_tests_cant": "All histories and level sets.", "anchors": ["src/loglevels.cpp: setHighest"]}
{"id": "C30", "title": "Level operations touch only what they name and reset restores the defaults", "statement": "set/enable/disable change only the named level and never register a new one; enableAll/disableAll change only the on/off status; addLogLevel registers or overwrites just that level; reset restores exactly the four standard levels, all enabled, whatever happened before.", "quantifier": "For every state and level.", "why_tests_cant": "All states.", "anchors": ["src/loglevels.cpp"]}
{"id": "C31", "title": "Asking whether a level is enabled changes nothing", "statement": "A LOG call at any level leaves the set of registered levels and their status unchanged.", "quantifier": "For every state and level.", "why_tests_cant": "The effect only shows in later operations on other levels; no test combines them.", "anchors": ["src/loglevels.cpp: logLevel"]}
{"id": "C32", "title": "The level listing names each registered level once, in ascending order", "statement": "log_levels::to_string prints exactly one line per registered level in ascending numeric order with its name, value and status, and the listing determines the set of levels (two different level tables have different listings when names contain no line breaks).", "quantifier": "For every level table reachable by any history.", "why_tests_cant": "All tables.", "anchors": ["src/loglevels.cpp: to_string"]}
{"id": "C33", "title": "Logging macros evaluate and fire exactly as documented", "statement": "LOG and LOG_IF emit exactly when the level is enabled (and the condition holds), evaluating the condition and the streamed arguments at most once and not at all when the level is disabled; CHECK fires exactly when its boolean is false and is independent of level settings; the macros are safe inside if/else without braces.", "quantifier": "For every level state, condition outcome and surrounding if/else structure.", "why_tests_cant": "All combinations of conditions and contexts; parsing of nested if/else is a statement about all contexts.", "anchors": ["src/g3log/g3log.hpp: LOG, LOG_IF, CHECK, LOGF, LOGF_IF, CHECKF", "src/loglevels.cpp: logLevel"]}
{"id": "C34", "title": "Fractional seconds are rendered exactly", "statement": "For any time at or after the epoch the %f3, %f6 and %f9 (or %f) fields are exactly 3, 6 and 9 decimal digits whose value is the number of whole milli-, micro- or nanoseconds within the second.", "quantifier": "For every time point at or after the epoch.", "why_tests_cant": "10^9 sub-second values times all seconds.", "anchors": ["src/time.cpp: to_string, localtime_formatted_fractions"]}
{"id": "C35", "title": "Fractional rendering is total", "statement": "Rendering the fractional part never fails: for every time point, also before the epoch, formatting yields a fixed-width unsigned field.", "quantifier": "For every time point of the clock.", "why_tests_cant": "Negative times are not tested and most of them misbehave only in some digit ranges.", "anchors": ["src/time.cpp: to_string(const g3::high_resolution_time_point&, Fractional)"]}
{"id": "C36", "title": "Fraction placeholders are replaced left to right, once, and nothing else changes", "statement": "In any format string every %f, %f3, %f6, %f9 placeholder is replaced by its digits, every other character is kept in place, no placeholder remains, and the scan always terminates.", "quantifier": "For every format string and every time at or after the epoch.", "why_tests_cant": "All strings, including adjacent and overlapping placeholders.", "anchors": ["src/time.cpp: localtime_formatted_fractions, getFractional"]}
{"id": "C37", "title": "The default log timestamp has a fixed, sortable shape", "statement": "With the default date and time formats every log entry's timestamp is exactly 26 characters 'YYYY/MM/DD hh:mm:ss uuuuuu' for years 1000 to 9999, and for two entries in the same UTC-offset regime, text order equals time order.", "quantifier": "For every broken-down local time in those years and every sub-second value.", "why_tests_cant": "All times.", "anchors": ["src/time.cpp: localtime_formatted, put_time", "src/g3log/time.hpp: internal::date_formatted, internal::time_formatted", "src/logmessage.cpp: timestamp"]}
{"id": "C38", "title": "Converting message time stamps to wall-clock time keeps order and distances", "statement": "Converting high-resolution stamps to system time with the same pair of reference readings never reorders stamps and changes the distance between two of them by less than one clock tick.", "quantifier": "For every pair of stamps and reference readings (within the clock's range).", "why_tests_cant": "All time points.", "anchors": ["src/g3log/time.hpp: to_system_time", "src/logmessage.cpp: LogMessage::LogMessage"]}
{"id": "C39", "title": "The reported file name is the last path component", "statement": "The short file name of a message is the part of the source path after the last '/' or '\\\\' (or opening parenthesis); it contains none of these characters and the path ends with it; a path without them is kept whole.", "quantifier": "For every path string.", "why_tests_cant": "All strings, including empty ones and trailing separators where index arithmetic wraps around.", "anchors": ["src/logmessage.cpp: splitFileName"]}
{"id": "C40", "title": "A normal log entry is the details followed by the message, verbatim", "statement": "For a non-fatal message toString is exactly: timestamp, tab, level, ' [', file, '->', function, ':', line, ']', tab, the logged text unchanged, newline; the text, the level and all details can be recovered from it.", "quantifier": "For every message content and location.", "why_tests_cant": "All message texts.", "anchors": ["src/logmessage.cpp: toString, normalToString, DefaultLogDetailsToString"]}
{"id": "C41", "title": "Every fatal level has its own, complete rendering", "statement": "Every message renders through exactly one of the layouts (normal, LOG(FATAL), CHECK, signal, exception, custom fatal) chosen by its level value, and every layout contains the logged text in full.", "quantifier": "For every level value and message content.", "why_tests_cant": "All integers and strings.", "anchors": ["src/logmessage.cpp: toString, fatalSignalToString, fatalExceptionToString, fatalLogToString, fatalCheckToString"]}
{"id": "C42", "title": "A custom log-details formatter is used when one was installed", "statement": "toString(f) renders the details with f; after overrideLogDetailsFunc(f), toString() without argument renders them with f.", "quantifier": "For every message and formatter.", "why_tests_cant": "All formatters and messages; the repository's own test discards the result of the comparison.", "anchors": ["src/logmessage.cpp: overrideLogDetailsFunc, toString", "src/g3log/logmessage.hpp: toString default argument"]}
{"id": "C43", "title": "Copying, moving and assigning messages preserves them", "statement": "A copy-constructed, move-constructed or assigned LogMessage is indistinguishable from its source (all fields, hence every rendering), and copying or assigning leaves the source unchanged.", "quantifier": "For every pair of messages.", "why_tests_cant": "All field combinations; equality must hold for every later observation.", "anchors": ["src/logmessage.cpp: LogMessage copy/move constructors, operator=", "src/g3log/logmessage.hpp: swap"]}
{"id": "C44", "title": "Line numbers and levels are rendered faithfully", "statement": "The rendered line number is the decimal notation of the source line and can be read back; different lines render differently.", "quantifier": "For every integer.", "why_tests_cant": "All integers.", "anchors": ["src/g3log/logmessage.hpp: line()", "src/logmessage.cpp"]}
{"id": "C45", "title": "printf-style messages that fit are logged verbatim", "statement": "A printf-style message whose formatted text is shorter than the maximum message size is logged completely and unchanged.", "quantifier": "For every formatted text without NUL bytes and every configured maximum size in the int range.", "why_tests_cant": "All texts and sizes.", "anchors": ["src/logcapture.cpp: capturef, setMaxMessageSize"]}
{"id": "C46", "title": "Truncation of printf-style messages is bounded and always announced", "statement": "A longer message is cut to an initial part that fits the maximum message size, and whenever anything was cut the logged text ends in '[...truncated...]'.", "quantifier": "For every text length relative to the buffer size.", "why_tests_cant": "Only one exact length (of unboundedly many) misbehaves.", "anchors": ["src/logcapture.cpp: capturef"]}
{"id": "C47", "title": "The logged text reaches the sink byte for byte", "statement": "The text streamed into LOG arrives at the sink unchanged, whatever bytes it contains.", "quantifier": "For every byte string.", "why_tests_cant": "All byte strings; tests use printable text.", "anchors": ["src/logcapture.cpp: ~LogCapture", "src/g3log.cpp: saveMessage"]}
{"id": "C48", "title": "A failing printf-style conversion is reported, not lost", "statement": "If formatting fails, the log entry says so and quotes the format string; the entry is still emitted.", "quantifier": "For every format string.", "why_tests_cant": "All format strings.", "anchors": ["src/logcapture.cpp: capturef"]}
{"id": "C49", "title": "Every emitted LOG carries its own location, level and text to the logger", "statement": "The message handed to the logger has the file, line, function, level and text of the LOG statement that produced it; it goes to the fatal path exactly if its level is fatal.", "quantifier": "For every location, level and text (without NUL bytes).", "why_tests_cant": "All inputs.", "anchors": ["src/logcapture.cpp", "src/g3log.cpp: saveMessage"]}
{"id": "C50", "title": "Log prefix sanitation yields a safe file name or refuses", "statement": "The prefix given to the file sink loses all white space, slashes, backslashes, dots and colons and keeps every other character in order; if anything left is illegal, or nothing is left, the sink refuses to start; an accepted prefix contains no illegal character.", "quantifier": "For every prefix string.", "why_tests_cant": "All strings.", "anchors": ["src/filesinkhelper.ipp: prefixSanityFix, isValidFilename", "src/filesink.cpp: FileSink::FileSink"]}
{"id": "C51", "title": "The log file is created in the requested directory", "statement": "The path opened for the log file denotes an entry directly inside the directory the client named.", "quantifier": "For every directory string, prefix and logger id.", "why_tests_cant": "All directory strings, e.g. the root directory, names containing backslashes or blanks.", "anchors": ["src/filesinkhelper.ipp: pathSanityFix, createLogFileName", "src/filesink.cpp: FileSink::FileSink"]}
{"id": "C52", "title": "The log file name encodes prefix, logger id and creation time", "statement": "The file name is prefix '.' [id '.'] YYYYMMDD-hhmmss '.log'; with a dot-free prefix (the sink removes dots) all three can be read back, whatever the id; files with the same prefix and id created at different local date-times (to the second) have different names.", "quantifier": "For every prefix, id and time.", "why_tests_cant": "All strings and times.", "anchors": ["src/filesinkhelper.ipp: createLogFileName"]}
{"id": "C53", "title": "After an orderly shutdown the log file holds everything", "statement": "After the file sink is destroyed, the file consists of the header (if any message was received), then every received message rendered in order exactly once, then the closing line.", "quantifier": "For every sequence of messages, every flush interval and every behaviour of the stream buffer.", "why_tests_cant": "All message sequences and flush intervals.", "anchors": ["src/filesink.cpp: FileSink::FileSink, fileWrite, ~FileSink"]}
{"id": "C54", "title": "A crash loses at most flush-interval minus one messages from the file", "statement": "At any moment the file on disk holds a byte-exact initial part of the header and the rendered messages, containing all but fewer than the configured flush interval of the most recently received messages.", "quantifier": "For every crash point in every message sequence, every flush interval, also when the message counter wraps around.", "why_tests_cant": "Every crash point; counter wrap-around needs 2^64 messages.", "anchors": ["src/filesink.cpp: fileWrite"]}
{"id": "C55", "title": "Changing the log file neither loses nor reorders messages", "statement": "Over any sequence of log file changes to distinct names, the messages in the old files followed by those in the new files, together with the not yet written ones, are all messages received, in order, each once; a failed change keeps writing to the old file.", "quantifier": "For every interleaving of messages and file changes, successful or not.", "why_tests_cant": "All sequences.", "anchors": ["src/filesink.cpp: changeLogFile, fileWrite"]}
{"id": "C56", "title": "Each log file starts with a log header", "statement": "Every file the sink writes messages to starts with the log header.", "quantifier": "For every sequence of messages and log file changes.", "why_tests_cant": "All sequences.", "anchors": ["src/filesink.cpp: changeLogFile, addLogFileHeader"]}
{"id": "C57", "title": "Changing the log file never destroys logged data", "statement": "A log file change never removes messages already written to disk, even if the new name equals the current one.", "quantifier": "For every sequence of changes and times.", "why_tests_cant": "Depends on two changes within the same second.", "anchors": ["src/filesink.cpp: changeLogFile", "src/filesinkhelper.ipp: openLogFile"]}
{"id": "C58", "title": "Every accepted file sink configuration is usable", "statement": "A file sink that was constructed successfully can receive messages without undefined behaviour, for every flush interval and every state of the file system.", "quantifier": "For every configuration and every open failure pattern.", "why_tests_cant": "The failing configurations (interval zero; no writable directory in a release build) crash the test process.", "anchors": ["src/filesink.cpp: FileSink::FileSink, fileWrite"]}
{"id": "C59", "title": "The file sink falls back to the current directory", "statement": "If the log file cannot be opened in the requested directory but can be in the current one, the sink logs to a file of the same name there; fileName always reports the path of the file actually open, also after later changes, successful or not.", "quantifier": "For every directory, open failure pattern and sequence of later calls.", "why_tests_cant": "All failure patterns.", "anchors": ["src/filesink.cpp: FileSink::FileSink, fileName"]}
{"id": "C60", "title": "Overriding header and details affects exactly the later output", "statement": "overrideLogHeader changes only headers written afterwards and overrideLogDetails changes only the details part of messages received afterwards; the message texts are unaffected.", "quantifier": "For every sequence of overrides and messages.", "why_tests_cant": "All sequences.", "anchors": ["src/filesink.cpp: overrideLogHeader, overrideLogDetails"]}
{"id": "C61", "title": "Signal handlers are installed for the chosen signals and the originals come back", "statement": "After the crash handler is installed and after every overrideSetupSignals(S), exactly the signals in S (that the system lets us catch) are handled by g3log and every other previously handled signal has the handling it had before g3log; restoreSignalHandler(s) gives back s's original handling.", "quantifier": "For every sequence of installations, override, restore and default calls and client sigaction calls over all signal numbers, in which nothing is installed twice and clients leave g3log's signals alone.", "why_tests_cant": "All operation sequences over all signals.", "anchors": ["src/crashhandler_unix.cpp: installSignalHandler, overrideSetupSignals, restoreSignalHandler, restoreFatalHandlingToDefault, installCrashHandler"]}
{"id": "C62", "title": "Installing the crash handler again is harmless", "statement": "Calling installCrashHandler when it is already installed does not change what the original handlers will be restored to.", "quantifier": "For every state.", "why_tests_cant": "The damage shows only when the process later crashes.", "anchors": ["src/crashhandler_unix.cpp: installCrashHandler, installSignalHandler"]}
{"id": "C63", "title": "The process dies by the original signal handling", "statement": "At the end of fatal handling all catched signals have their original handling and the fatal signal is raised, so a process with default handling dies by that very signal; if the signal does not end the process, it exits with the signal's number.", "quantifier": "For every signal set-up reachable by any override sequence and every fatal signal.", "why_tests_cant": "Ends the process.", "anchors": ["src/crashhandler_unix.cpp: exitWithDefaultSignalHandler"]}
{"id": "C64", "title": "Only the first of several concurrent fatal signals is processed", "statement": "As long as the fatal handling blocks (that is, until the raised signal came back without ending the process), of any number of fatal signals arriving at any threads, nested or not, at most one is logged and handed to the worker; all others wait. Once the worker unblocks, every handler comes to its end after a few more turns of its thread.", "quantifier": "For every number of signals and every schedule.", "why_tests_cant": "All interleavings of signal handlers.", "anchors": ["src/crashhandler_unix.cpp: signalHandler, shouldDoExit, shouldBlockForFatalHandling"]}
{"id": "C65", "title": "The fatal reason names the event", "statement": "The reported reason is exactly the name of the signal for the five known signals, and otherwise includes the number and the level text; different signal numbers have different reasons.", "quantifier": "For every level and signal number.", "why_tests_cant": "All integers.", "anchors": ["src/crashhandler_unix.cpp: exitReasonName", "src/logmessage.cpp: FatalMessage::reason"]}
{"id": "C66", "title": "Every stack frame is reported, in order", "statement": "The stack dump has one entry per captured frame except the innermost, in order, with the (demangled, if possible) symbol name and offset when the frame text has the form 'module(symbol+offset) [address]' or 'number module address _symbol + offset', and the raw frame text when it has no plus sign or lacks the symbol or the offset; a given dump text is passed through unchanged.", "quantifier": "For every list of frame texts and every demangler behaviour.", "why_tests_cant": "All strings.", "anchors": ["src/crashhandler_unix.cpp: stackdump"]}
{"id": "C67", "title": "Producing a stack dump never throws", "statement": "Building the stack dump completes without an exception for every frame text the system may supply.", "quantifier": "For every frame text.", "why_tests_cant": "The offending texts do not occur on the platforms the tests run on.", "anchors": ["src/crashhandler_unix.cpp: stackdump"]}
{"id": "C68", "title": "The fatal message is complete", "statement": "What the sinks receive for a fatal event contains the logged text, the stack trace, and the exit reason with the level, in this order.", "quantifier": "For every message text, level and signal.", "why_tests_cant": "All inputs.", "anchors": ["src/g3log.cpp: saveFatalMessage", "src/logworker.cpp: bgFatal", "src/logcapture.cpp: LogCapture::LogCapture"]}
{"id": "C69", "title": "A custom fatal level works without being registered", "statement": "LOG at a user-defined level whose value is at least FATAL's is emitted and treated as fatal although the level was never registered with addLogLevel, as the comment in loglevels.hpp promises for dynamic logging.", "quantifier": "For every custom level value from FATAL upwards and every level table.", "why_tests_cant": "The documented promise ranges over all level values; a test of one value with a registered level says nothing.", "anchors": ["src/g3log/loglevels.hpp: comment lines 84-87", "src/loglevels.cpp: logLevel, wasFatal"]}
{"id": "C70", "title": "CHECK accepts every true condition", "statement": "CHECK(e), CHECKF(e, ...) and CHECK_F(e, ...) for an integer expression e treat the contract as fulfilled if and only if e is non-zero, as assert does.", "quantifier": "For every integer value of the condition.", "why_tests_cant": "All integer values; the tests only use boolean conditions.", "anchors": ["src/g3log/g3log.hpp: CHECK, CHECKF, CHECK_F"]}
{"id": "C71", "title": "Every configured maximum message size is honoured", "statement": "After setMaxMessageSize(n) for any non-zero n, a printf-style message shorter than n is logged unchanged.", "quantifier": "For every value of the size type.", "why_tests_cant": "Sizes beyond the int range are not practical in a test.", "anchors": ["src/logcapture.cpp: setMaxMessageSize, capturef"]}
{"id": "C72", "title": "A changed log file lies in the named directory", "statement": "After changeLogFile(directory) succeeds, the new log file is an entry directly inside that directory.", "quantifier": "For every directory string.", "why_tests_cant": "All directory strings, with and without a slash at the end.", "anchors": ["src/filesink.cpp: changeLogFile"]}
{"id": "C73", "title": "A fatal signal gets through to the worker", "statement": "Once a fatal signal has arrived at some thread, one fatal message is handed to the worker provided every thread goes on running, whatever other fatal signals arrive meanwhile.", "quantifier": "For every number of signals, nested or not, and every fair schedule.", "why_tests_cant": "The failing interleavings need a second fault inside the handler.", "anchors": ["src/crashhandler_unix.cpp: signalHandler, shouldDoExit"]}
{"id": "C74", "title": "writeErrorMessage tells how much it wrote", "statement": "The result of writeErrorMessage is the number of bytes written, never more than the length of the message, and 0 without a message.", "quantifier": "For every message and every outcome of write().", "why_tests_cant": "Failing writes to stderr are not part of any test.", "anchors": ["src/crashhandler_unix.cpp: writeErrorMessage"]}
{"id": "C75", "title": "The fatal hook runs at most once also when several threads fail", "statement": "However many threads hit a fatal event at the same time, each hook set by setFatalPreLoggingHook runs at most once.", "quantifier": "For every number of threads and every interleaving.", "why_tests_cant": "The failing interleaving has a window of a few instructions.", "anchors": ["src/g3log.cpp: saveFatalMessage, setFatalPreLoggingHook"]}
{"id": "C76", "title": "No fatal message is lost", "statement": "For every fatal event whose hook returns, the fatal message is handed to exactly one receiver: the overriding handler, the active logger, or stderr. In particular setting an empty hook or an empty handler does not lose messages.", "quantifier": "For every history of hook and handler settings, initializations and fatal events.", "why_tests_cant": "All histories; the failing ones end the process with an exception out of a destructor.", "anchors": ["src/g3log.cpp: saveFatalMessage, fatalCall, setFatalExitHandler, setFatalPreLoggingHook"]}
{"id": "C77", "title": "empty() and size() describe one moment of the call", "statement": "The results of empty() and size() are right for the content the queue had at one moment between call and return: empty() is true exactly if the content is empty, size() is the number of items.", "quantifier": "For every number of threads, every interleaving and every number of items.", "why_tests_cant": "All interleavings and all lengths, also beyond the range of the result type.", "anchors": ["src/g3log/shared_queue.hpp: empty, size"]}
{"id": "C78", "title": "Windows: every exception and signal has its own name", "statement": "The twenty documented exception codes are reported by their names, every other code as UNKNOWN EXCEPTION with its number; the five signals by their names, other numbers as UNKNOWN SIGNAL; with one level, different numbers give different texts.", "quantifier": "For every code and every level.", "why_tests_cant": "There are 2^32 codes, and the Windows files are not built on the machines that run the tests.", "anchors": ["src/stacktrace_windows.cpp: exceptionIdToText, isKnownException", "src/crashhandler_windows.cpp: exitReasonName"]}
{"id": "C79", "title": "Windows: the dump has one numbered line per frame", "statement": "The dump consists of one line per stack frame, numbered from 0, up to the first null address and for at most 64 frames, with source position and name as far as they are known; or of the error text if symbols cannot be loaded.", "quantifier": "For every stack and every symbol table.", "why_tests_cant": "All stacks, also longer than 64 frames.", "anchors": ["src/stacktrace_windows.cpp: captureStackTrace, getSymbolInformation, convertFramesToText, stackdump"]}
{"id": "C80", "title": "Windows: the guard against recursive crashes", "statement": "A crash inside a stack dump is noticed after one extra pass and ends in the notice about recursion; dumps that do not nest always give a dump; no two threads are inside a dump at the same time.", "quantifier": "For every number of threads, every nesting and every interleaving.", "why_tests_cant": "All interleavings; crashes inside the crash handler are not tested.", "anchors": ["src/stacktrace_windows.cpp: stackdump, g_thread_local_recursive_crash_check"]}
{"id": "C81", "title": "Windows: the walk starts at the faulting instruction", "statement": "The stack walk starts with the program counter, the frame pointer and the stack pointer of the given context.", "quantifier": "For every processor architecture and every context.", "why_tests_cant": "32-bit builds are not tested.", "anchors": ["src/stacktrace_windows.cpp: captureStackTrace"]}
{"id": "C82", "title": "Windows: a thread that logs is covered", "statement": "After the first LOG call or installation in a thread all five fatal signals raised in it lead to g3log, until handlers are replaced or restored; and a later installation after a restore covers it again.", "quantifier": "For every history of calls in any number of threads.", "why_tests_cant": "All histories in all threads.", "anchors": ["src/crashhandler_windows.cpp: installSignalHandlerForThread, installCrashHandler, restoreFatalHandlingToDefault", "src/logcapture.cpp: SIGNAL_HANDLER_VERIFY"]}
{"id": "C83", "title": "Windows: restoring puts back what was there before", "statement": "After restoring, the exception filter, the vectored handlers and the signal handlers are those from before the installation.", "quantifier": "For every history of calls in any number of threads.", "why_tests_cant": "All histories.", "anchors": ["src/crashhandler_windows.cpp: restoreFatalHandlingToDefault, installCrashHandler"]}
{"id": "C84", "title": "Windows: a fatal message ends the process or lets the exception go on", "statement": "A fatal message that carries a signal ends the process by that signal; one that carries an exception releases the waiting thread; the vectored handler logs exactly the documented exceptions; no fatal message leaves its thread waiting for ever.", "quantifier": "For every state of the handlers, every level and every number.", "why_tests_cant": "All numbers and all states.", "anchors": ["src/crashhandler_windows.cpp: exitWithDefaultSignalHandler, vectorExceptionHandling"]}
{"id": "C85", "title": "Crash reports identify the event", "statement": "From the report of a fatal signal one can tell the signal, the process, si_errno and si_code (on Windows the signal or exception and the process); the report and the stack dump reach the fatal path complete, as a message of level FATAL_SIGNAL; the last words on stderr tell level and signal; a failing restore names its signal.", "quantifier": "For every signal number, process id, error number, code and dump.", "why_tests_cant": "All numbers, also those that are no known signal.", "anchors": ["src/crashhandler_unix.cpp: signalHandler, exitWithDefaultSignalHandler, signalToStr, restoreSignalHandler", "src/crashhandler_windows.cpp: signalHandler, exceptionHandling"]}
{"id": "C86", "title": "A message made from a crash text is a fatal one with exactly that text", "statement": "The constructor LogMessage(crash text) never fails and yields a message of level FATAL_SIGNAL whose text is the crash text, with empty file, function and expression and line 0.", "quantifier": "For every text, in both configurations of file names.", "why_tests_cant": "All texts; this constructor is not used by the tests.", "anchors": ["src/logmessage.cpp: LogMessage(const std::string&)"]}
{"id": "C87", "title": "Sinks may log", "statement": "Code that runs on the library's own threads (receive functions, functions called through handles, destructors of sink objects) may log: the log call returns after its own steps whatever the sinks do, what sinks receive is as without such calls (each message once, in the common order), and if no call on these threads waits for another thread, everything comes to rest only when all calls have returned and all messages are received.", "quantifier": "For every assignment of clients to threads, any number of clients and sinks, every schedule.", "why_tests_cant": "Calls from inside callbacks interleaved with all other threads; deadlocks show up only in rare schedules.", "anchors": ["src/g3log.cpp: pushMessageToLogger", "src/logworker.cpp: save, bgSave", "src/g3log/active.hpp: run", "src/g3log/sink.hpp: send, async"]}
{"id": "C88", "title": "Sinks may be added and removed from any thread", "statement": "addSink, removeSink and removeAllSinks return, also when they are called from a receive function or from the destructor of a sink object.", "quantifier": "For every assignment of clients to threads and every schedule.", "why_tests_cant": "A deadlock between the worker that joins a sink and the sink that waits for the worker: a test that hits it hangs.", "anchors": ["src/g3log/logworker.hpp: removeSink, removeAllSinks", "src/logworker.cpp: addWrappedSink", "src/g3log/active.hpp: ~Active"]}
{"id": "C89", "title": "A fatal event ends the process on whatever thread it happens", "statement": "After a fatal event (failed CHECK, LOG(FATAL), fatal signal) the sinks are flushed and the process is killed, also when the event happens on the thread of a sink or of the worker.", "quantifier": "For every assignment of clients to threads and every schedule.", "why_tests_cant": "Fatal events inside the library's own threads kill or hang the test process.", "anchors": ["src/g3log.cpp: pushFatalMessageToLogger", "src/logworker.cpp: bgFatal", "src/g3log/active.hpp: ~Active", "src/crashhandler_unix.cpp: signalHandler"]}
{"id": "C90", "title": "A sink may use its own handle", "statement": "Code on a sink's thread may call functions of its own sink through the handle, or try to remove it, without ending the program.", "quantifier": "For every assignment of clients to threads and every schedule.", "why_tests_cant": "The last shared_ptr must be released on the sink's own thread, in a window of a few instructions.", "anchors": ["src/g3log/sinkhandle.hpp: call", "src/g3log/sink.hpp: ~Sink", "src/g3log/active.hpp: ~Active"]}
{"id": "C91", "title": "The queue has no data races", "statement": "Any number of threads calling push, try_and_pop, wait_and_pop, empty and size on one queue never make two conflicting unsynchronized accesses, to the queue or to anything else.", "quantifier": "For every number of threads, all sequences of calls, every schedule.", "why_tests_cant": "A data race shows up only in rare schedules and depends on the memory system; a race detector sees one run.", "anchors": ["src/g3log/shared_queue.hpp: push, try_and_pop, wait_and_pop, empty, size"]}
{"id": "C92", "title": "The documented use has no data races", "statement": "A program that creates a worker, adds sinks, initializes, then starts threads that log below FATAL with known levels, query levels, set the fatal hook and add or remove sinks, joins them and destroys the worker has no data race on any variable of the library.", "quantifier": "For every number of threads, all sequences of such calls, every schedule, every set of levels and signals.", "why_tests_cant": "All interleavings of all calls; a race detector sees one run.", "anchors": ["src/g3log.cpp: initializeLogging, pushMessageToLogger, shutDownLogging", "src/logworker.cpp", "src/g3log/active.hpp: run, send", "src/loglevels.cpp: logLevel, getStatus"]}
{"id": "C93", "title": "The level functions may be called from several threads", "statement": "Threads may query, switch, add and reset levels at the same time without a data race.", "quantifier": "For every table of levels, every number of threads, all sequences of calls, every schedule.", "why_tests_cant": "The race is on the structure of a std::map or on a LEVELS object, in a window of a few instructions.", "anchors": ["src/loglevels.cpp: logLevel, addLogLevel, set, setHighest, disableAll, getAll, getStatus, reset", "src/g3log/loglevels.hpp: LoggingLevel", "src/g3log/atomicbool.hpp"]}
{"id": "C94", "title": "The library's global variables have no data races", "statement": "Threads may log, initialize, shut down, destroy the worker, set the fatal hook and the exit handler, and log fatal messages at the same time without a data race on the variables of g3log.cpp.", "quantifier": "For every number of threads, all sequences of calls, every schedule.", "why_tests_cant": "All interleavings of life cycle calls with log calls.", "anchors": ["src/g3log.cpp: initializeLogging, setFatalPreLoggingHook, setFatalExitHandler, shutDownLogging, saveFatalMessage, pushMessageToLogger, pushFatalMessageToLogger"]}
{"id": "C95", "title": "The tables of signals have no data races", "statement": "overrideSetupSignals may be called from any number of threads, and at the same time as initializeLogging and the handling of fatal messages, without a data race on the tables of signals.", "quantifier": "For every number of threads, all sequences of calls, every schedule.", "why_tests_cant": "The calls must overlap within a few instructions.", "anchors": ["src/crashhandler_unix.cpp: overrideSetupSignals, restoreSignalHandler, installSignalHandler, exitWithDefaultSignalHandler"]}
{"id": "C96", "title": "A fatal signal is reported whatever the thread was doing", "statement": "When a fatal signal interrupts a thread, at any point and also inside a call of the library, the handler comes to its end and the fatal message reaches the queue of the worker.", "quantifier": "For every number of threads, all sequences of library calls, every schedule, every moment of the signal.", "why_tests_cant": "The signal must arrive within the few instructions in which the thread holds a mutex.", "anchors": ["src/crashhandler_unix.cpp: signalHandler, shouldDoExit", "src/g3log.cpp: saveFatalMessage, pushFatalMessageToLogger, setFatalPreLoggingHook", "src/g3log/shared_queue.hpp: push, wait_and_pop"]}
{"id": "C97", "title": "The log file is complete after shutdown", "statement": "When ~LogWorker or removeSink has returned, the file of a file sink that could open it and that no client owns holds exactly: the header, one line for every LOG statement that was logged before (timestamp, level, file name, function, line number and the streamed text), in the order of the queue and so in program order of each thread, each once, then lines of statements logged meanwhile, and the closing line. No other file is touched, and writing does not fail.", "quantifier": "For every program (texts without NUL bytes), number of threads, schedule, buffering interval, behaviour of the stream buffer and clock readings with four digit years.", "why_tests_cant": "Composition of the capture, the queue, the copies, the sink's thread and buffered file output over all schedules.", "anchors": ["src/g3log/logcapture.hpp: LogCapture", "src/g3log.cpp: saveMessage, pushMessageToLogger", "src/logworker.cpp: bgSave, ~LogWorker", "src/g3log/logworker.hpp: removeSink", "src/g3log/sink.hpp: send", "src/filesink.cpp: FileSink, fileWrite, ~FileSink", "src/logmessage.cpp: toString"]}
{"id": "C98", "title": "The log file is complete after a crash", "statement": "When the worker has handled a fatal message (LOG(FATAL), failed CHECK or fatal signal) and kills the process, the file of a registered file sink that no client owns holds exactly: the header, one line for every statement that reached the worker before while the sink was registered, the fatal message with its text, stack dump and last words, and the closing line.", "quantifier": "For every program (texts without NUL bytes), number of threads, schedule, buffering interval, behaviour of the stream buffer and clock readings with four digit years.", "why_tests_cant": "A crash ends the test process; all schedules of the other threads.", "anchors": ["src/g3log.cpp: saveFatalMessage, pushFatalMessageToLogger", "src/logworker.cpp: bgFatal", "src/g3log/sink.hpp: ~Sink", "src/filesink.cpp: fileWrite, ~FileSink", "src/logmessage.cpp: toString"]}
{"id": "C99", "title": "An entry that was begun is handed over exactly once, also when an operand throws", "statement": "Whatever the operands of logging statements do (throw, log themselves, change variables), every LogCapture that was constructed hands over exactly one entry from its own place, and statements nest properly. When an operand throws, the entry carries the text streamed so far, later operands and statements do not run, and the exception goes on to the client; when the condition of LOG_IF or CHECK throws there is no entry. Only a fatal entry ends the process, and nothing is handed over after it.", "quantifier": "For every client code built from statements, conditions, operands, assignments and exceptions, nested to any depth.", "why_tests_cant": "All nestings of statements and exceptions.", "anchors": ["src/g3log/g3log.hpp: LOG, LOG_IF, CHECK, LOGF", "src/logcapture.cpp: LogCapture::~LogCapture", "src/g3log.cpp: saveMessage"]}
{"id": "C100", "title": "Nested logging statements do not mix", "statement": "The text of an entry is exactly that of its own statement's operands, also when evaluating them runs other logging statements; those entries are handed over first. The time stamps of a thread's entries are successive readings of the clock in the order of handing over.", "quantifier": "For every client code, nested to any depth.", "why_tests_cant": "All nestings.", "anchors": ["src/g3log/logcapture.hpp: LogCapture::_stream", "src/logcapture.cpp: LogCapture::~LogCapture", "src/logmessage.cpp: LogMessage::LogMessage"]}
{"id": "C101", "title": "The level that was checked is the level of the entry", "statement": "LOG(level) writes an entry of exactly the level whose status it has checked, with a stack dump exactly if that level is fatal.", "quantifier": "For every level expression, operands and state of the level table.", "why_tests_cant": "The level expression is evaluated twice and then held by reference.", "anchors": ["src/g3log/g3log.hpp: LOG, LOG_IF, LOGF, INTERNAL_LOG_MESSAGE", "src/g3log/logcapture.hpp: LogCapture::_level", "src/logcapture.cpp: LogCapture::LogCapture"]}
{"id": "C102", "title": "The text of every operand is in the entry", "statement": "Every operand that can be printed is in the text of its entry.", "quantifier": "For every list of operands.", "why_tests_cant": "All lists of operands, including those for which the stream fails.", "anchors": ["src/g3log/logcapture.hpp: LogCapture::stream", "src/logcapture.cpp: LogCapture::~LogCapture"]}
{"id": "C103", "title": "Entries reach the sinks in the order of their time stamps", "statement": "In the worker's queue, and so in every sink, entries are ordered by time stamp, provided that the clock does not go back.", "quantifier": "For every number of threads and every schedule.", "why_tests_cant": "Requires a preemption between reading the clock and pushing the message.", "anchors": ["src/logmessage.cpp: LogMessage::LogMessage", "src/g3log.cpp: saveMessage", "src/logworker.cpp: save", "src/g3log/shared_queue.hpp: push"]}
{"id": "C104", "title": "A time format is rendered as documented", "statement": "localtime_formatted renders every format as strftime does, with %f, %f3, %f6 and %f9 replaced by fractions of the second.", "quantifier": "For every format without NUL bytes and every time at or after the epoch with a four digit year.", "why_tests_cant": "All formats, including escapes, empty and very long ones.", "anchors": ["src/time.cpp: localtime_formatted, localtime_formatted_fractions, put_time"]}
{"id": "C105", "title": "A sink that throws harms nobody else", "statement": "An exception thrown by the receive function of one sink does not keep the other sinks from receiving the messages that were logged.", "quantifier": "For every number of sinks and clients and every schedule.", "why_tests_cant": "Needs a sink that throws while others still have messages queued.", "anchors": ["src/g3log/active.hpp: Active::run", "src/g3log/sink.hpp: Sink::send", "src/g3log/future.hpp: spawn_task"]}
{"id": "C106", "title": "A sink that hangs harms nobody else", "statement": "While some sinks do not return from their receive functions, the other sinks still receive everything that is logged.", "quantifier": "For every set of hanging sinks, every number of clients and every schedule.", "why_tests_cant": "A sink that hangs for good cannot be tested for; the other threads' progress has to be shown for every schedule.", "anchors": ["src/logworker.cpp: LogWorkerImpl::bgSave", "src/g3log/logworker.hpp: removeSink", "src/g3log/active.hpp: Active::~Active"]}
{"id": "C107", "title": "LOG never waits for a sink or for the worker", "statement": "A LOG call is over after exactly two steps of its own thread (reading the active logger, queueing the message), each possible at once whatever the worker, the sinks and other clients do. Queueing waits for nothing but the queue's mutex, and whoever has the mutex can go on and lets go of it after at most three steps.", "quantifier": "For every state of the worker, the sinks, the other clients and the queue, and every schedule.", "why_tests_cant": "Progress under every schedule, with sinks that hang.", "anchors": ["src/g3log.cpp: pushMessageToLogger", "src/logworker.cpp: LogWorker::save", "src/g3log/shared_queue.hpp: push, wait_and_pop, try_and_pop"]}
{"id": "C108", "title": "A custom level has the value its definition says", "statement": "A level defined from other levels in the same source file, as loglevels.hpp documents, has the value its definition says, in every file that contains the definition and whatever the order in which the program's files are initialized.", "quantifier": "For every program and every order of dynamic initialization.", "why_tests_cant": "The linker chooses one order; others appear with the next build.", "anchors": ["src/g3log/loglevels.hpp: LEVELS, G3LOG_DEBUG, INFO, WARNING, FATAL"]}
{"id": "C109", "title": "LOG may be used while static objects are initialized", "statement": "A LOG statement executed by the constructor of a static object uses no object of the library before its initialization; an entry below FATAL is kept as the first message or dropped, and the program goes on.", "quantifier": "For every program and every order of dynamic initialization.", "why_tests_cant": "The order between files is unspecified; a test sees the one the linker chose.", "anchors": ["src/loglevels.cpp: wasFatal, logLevel, g_log_levels", "src/g3log.cpp: saveMessage, saveFatalMessage, pushMessageToLogger", "src/logcapture.cpp: LogCapture::LogCapture"]}
{"id": "C110", "title": "A fatal exit handler set before main stays in force", "statement": "A handler given to setFatalExitHandler by the constructor of a static object is the one in force when main begins.", "quantifier": "For every program and every order of dynamic initialization.", "why_tests_cant": "The order between files is unspecified; a test sees the one the linker chose.", "anchors": ["src/g3log.cpp: setFatalExitHandler, g_fatal_to_g3logworker_function_ptr"]}
{"id": "C111", "title": "Changing the log file loses and repeats nothing", "statement": "When threads log while others change the log file through the handle, the files together hold, in the order in which they were opened, one line for each statement logged, in the order of the queue, each in exactly one file; besides these lines there are only headers, notices and the closing line. This holds after an orderly shutdown (every statement logged before it began) and after a fatal event (every statement queued before it, then the fatal one).", "quantifier": "For every number of threads and statements, every schedule, every number of changes, failed ones included, and every buffer size.", "why_tests_cant": "Every schedule of logging against changing, with entries still in the buffer when the file is changed.", "anchors": ["src/filesink.cpp: FileSink::changeLogFile, fileWrite, ~FileSink", "src/g3log/sinkhandle.hpp: SinkHandle::call", "src/g3log/sink.hpp: Sink::async", "src/logworker.cpp: bgSave, bgFatal, ~LogWorker"]}
{"id": "C112", "title": "LOG may be used while static objects are destroyed", "statement": "A LOG statement executed by the destructor of a static object, and the destruction of a worker that a static object owns, use no object of the library after its destruction.", "quantifier": "For every program, every order of static initialization (and so of destruction) and every state at the end of main.", "why_tests_cant": "The order between files is unspecified; a test sees the one the linker chose, and use after destruction often goes unnoticed.", "anchors": ["src/g3log.cpp: saveMessage, pushMessageToLogger, g_first_uninitialized_msg, shutDownLoggingForActiveOnly", "src/loglevels.cpp: logLevel, g_log_levels", "src/logworker.cpp: ~LogWorker", "src/g3log/time.hpp: date_formatted, time_formatted"]}
{"id": "C113", "title": "Initialization arms the crash handling, once", "statement": "The first initializeLogging of the process installs the crash handler; no later initialization, shut-down or logging call touches the signal table. So once logging has been initialized g3log handles the signals chosen last, unless the client takes single signals away.", "quantifier": "For every number of threads, every schedule of their calls, signals and signal set-up calls, every initial signal table.", "why_tests_cant": "All interleavings of initialization, shut-down and signal set-up; a second installation does damage that shows only at a later crash.", "anchors": ["src/g3log.cpp: initializeLogging, g_initialize_flag", "src/crashhandler_unix.cpp: installCrashHandler, overrideSetupSignals"]}
{"id": "C114", "title": "A crash is reported and then ends the process as it would have without g3log", "statement": "When a fatal signal, an uncaught exception or LOG(FATAL) strikes a thread while a worker is in service, that worker gets the report of this event before any other fatal message, the process ends when the worker is through with it and not before, and it ends the way the same event would have ended it without g3log.", "quantifier": "For every history of initialization and proper signal set-up, every schedule of the other threads' logging, every number of further signals at other threads, every hook that only logs.", "why_tests_cant": "Ends the process; needs all interleavings of the crash with other threads and signals.", "anchors": ["src/crashhandler_unix.cpp: signalHandler, exitWithDefaultSignalHandler", "src/g3log.cpp: saveFatalMessage, fatalCall, pushFatalMessageToLogger", "src/logworker.cpp: bgFatal"]}
{"id": "C115", "title": "A LOG statement that runs out of memory throws and changes nothing, or logs its entry", "statement": "If an allocation fails during a LOG statement, either the client gets an exception and the logging is as if the statement had not been executed, or the entry with its whole text is handed to the worker. The entries the worker is given are exactly those of the statements that came through, in order, once each.", "quantifier": "For every statement, every pattern of failing allocations, every state of the logging, every run of statements and worker turns.", "why_tests_cant": "Allocation failures at each single point of the path cannot be provoked by tests; the damage shows only in later calls.", "anchors": ["src/logcapture.cpp: ~LogCapture", "src/g3log.cpp: saveMessage, pushMessageToLogger", "src/g3log/active.hpp: send", "src/g3log/shared_queue.hpp: push"]}
{"id": "C116", "title": "A fatal event ends the process also when memory has run out", "statement": "A LOG(FATAL) or failed CHECK never lets the program go on: also if an allocation fails in it the process ends, the hook has been called, and the report is right.", "quantifier": "For every fatal statement, every pattern of failing allocations, every state.", "why_tests_cant": "Needs allocation failures at chosen points of code that ends the process.", "anchors": ["src/g3log.cpp: saveFatalMessage, pushFatalMessageToLogger", "src/logworker.cpp: bgFatal"]}
{"id": "C117", "title": "Entries that were accepted reach the sinks also when memory runs out in the background", "statement": "If an allocation fails on the worker's thread, what LOG statements have handed over before still reaches every sink, in order.", "quantifier": "For every run of statements, addSink calls and worker turns, every pattern of failing allocations.", "why_tests_cant": "Needs allocation failures on the background thread at chosen points.", "anchors": ["src/logworker.cpp: bgSave", "src/g3log/active.hpp: run", "src/g3log/sink.hpp: send"]}
{"id": "C118", "title": "addSink that returns has registered its sink, one that throws has not", "statement": "When addSink returns a handle the sink is registered; when it throws, the worker's sinks are as before, and the process goes on.", "quantifier": "For every run, every pattern of failing allocations.", "why_tests_cant": "Needs allocation failures at chosen points on two threads.", "anchors": ["src/g3log/logworker.hpp: addSink", "src/logworker.cpp: addWrappedSink", "src/g3log/future.hpp: spawn_task"]}
{"id": "C119", "title": "A failed initializeLogging can be repeated", "statement": "If initializeLogging throws because memory has run out, the logging is as before the call, including the entry kept from before initialization, and the call can be repeated.", "quantifier": "For every state before the call, every pattern of failing allocations.", "why_tests_cant": "Needs an allocation failure inside initializeLogging.", "anchors": ["src/g3log.cpp: initializeLogging, g_save_first_uninitialized_flag"]}
{"id": "C120", "title": "Failing to start the background thread is reported to the caller", "statement": "If the thread of an active object cannot be started, createActive (and so createLogWorker and addSink) throws; the process goes on.", "quantifier": "For every pattern of failing allocations and thread creations.", "why_tests_cant": "Needs a failing pthread_create or allocation at a chosen point.", "anchors": ["src/g3log/active.hpp: createActive, ~Active"]}
{"id": "C121", "title": "The log file goes on when writing works again", "statement": "After a write to the log file has failed (disk full), messages received once writing works again are written to the file.", "quantifier": "For every sequence of calls to a file sink, every pattern of failing writes, every stream library.", "why_tests_cant": "Needs a device that fails and recovers at chosen moments.", "anchors": ["src/filesink.cpp: fileWrite, changeLogFile, ~FileSink", "src/g3log/filesink.hpp: _outptr"]}
{"id": "C122", "title": "A write error disturbs nothing but the text of the log file", "statement": "A failing write to the log file never throws, aborts or stops the sink, leaves its members (file name, waiting messages, counter) as without the error, and touches no file the sink has not opened.", "quantifier": "For every sequence of calls to a file sink, every pattern of failing writes, every stream library.", "why_tests_cant": "Needs write errors at every possible moment, in all combinations.", "anchors": ["src/filesink.cpp: fileWrite, changeLogFile, ~FileSink", "src/filesinkhelper.ipp: createLogFile, openLogFile"]}
{"id": "C123", "title": "After a write error the log file holds a beginning of the log", "statement": "Whatever writes fail, each log file holds a beginning of the text it would hold without the errors: nothing is missing in the middle, repeated or foreign.", "quantifier": "For every sequence of calls to a file sink, every pattern of failing and partial writes, every stream library.", "why_tests_cant": "Needs partial writes at every possible byte, and every stream library.", "anchors": ["src/filesink.cpp: fileWrite, changeLogFile, ~FileSink"]}
{"id": "C124", "title": "Programs cannot tell shared_queue from an atomic queue", "statement": "Any multi-threaded program using a shared_queue behaves as with a queue whose operations happen at once: it reaches the same shared memory, items and local variables (up to results still on their way to the caller), it can do everything it can do with the atomic queue, and it deadlocks only where it would with the atomic queue.", "quantifier": "For every program (any local variables, shared memory and steps), any number of threads, every interleaving, spurious wake-ups included.", "why_tests_cant": "Quantifies over all client programs.", "anchors": ["src/g3log/shared_queue.hpp: push, try_and_pop, wait_and_pop, empty, size", "src/g3log/active.hpp: run, send"]}
{"id": "C125", "title": "Removing a sink when memory runs out", "statement": "removeSink and removeAllSinks either remove the sink, which has then done all it was sent and is destroyed, or throw and leave everything as it was, so that the call can be repeated; the process goes on.", "quantifier": "For every run of LOG, addSink, removeSink and removeAllSinks calls by any clients and of worker turns, every pattern of failing allocations.", "why_tests_cant": "Needs allocation failures at chosen points on two threads, and a sink nobody has a handle of any more cannot be observed through the interface.", "anchors": ["src/g3log/logworker.hpp: removeSink, removeAllSinks", "src/g3log/future.hpp: spawn_task", "src/g3log/sink.hpp: ~Sink", "src/g3log/active.hpp: ~Active"]}
{"id": "C126", "title": "Destroying the worker when memory runs out", "statement": "Also when memory runs out, the destructor of the worker delivers every entry that was accepted before to every sink, destroys the sinks and returns.", "quantifier": "For every run of LOG, addSink, removeSink and removeAllSinks calls by any clients and of worker turns before and during the destructor, every pattern of failing allocations.", "why_tests_cant": "Needs allocation failures at chosen points inside destructors on several threads.", "anchors": ["src/logworker.cpp: LogWorker::~LogWorker, bgSave", "src/g3log/active.hpp: ~Active", "src/g3log/sink.hpp: ~Sink"]}
{"id": "C127", "title": "Windows: an exception that the program handles does not end logging", "statement": "After a structured exception that the program handles itself, logging goes on: what is logged afterwards reaches the sinks.", "quantifier": "For every state of handlers, threads, queue and sinks, every exception code and every continuation.", "why_tests_cant": "Needs a Windows build, real exceptions, and every interleaving of the failing thread with the background thread.", "anchors": ["src/crashhandler_windows.cpp: vectorExceptionHandling, exceptionHandling", "src/logworker.cpp: bgFatal", "src/g3log.cpp: pushMessageToLogger"]}
{"id": "C128", "title": "Windows: a fatal call does not return", "statement": "LOG(FATAL), a failed CHECK and a fatal signal never let their thread go on: the background thread flushes the sinks and ends the process by the signal.", "quantifier": "For every run of any number of threads that log, fail, raise signals and exceptions and set handlers of their own.", "why_tests_cant": "Needs two threads failing in a certain order at the same time.", "anchors": ["src/g3log.cpp: pushFatalMessageToLogger", "src/crashhandler_windows.cpp: exitWithDefaultSignalHandler, shouldBlockForFatalHandling", "src/logworker.cpp: bgFatal"]}
{"id": "C129", "title": "Windows: exceptions after logging was shut down go on to the program", "statement": "When the logger has been shut down, an exception still goes on to the handlers of the program, and LOG(FATAL), CHECK and fatal signals still end the process by their signal.", "quantifier": "For every state of the handlers and threads without a logger, and every exception code and signal.", "why_tests_cant": "The failure is a null pointer used inside an exception handler.", "anchors": ["src/g3log.cpp: pushFatalMessageToLogger", "src/crashhandler_windows.cpp: vectorExceptionHandling, unexpectedExceptionHandling, exitWithDefaultSignalHandler"]}
{"id": "C130", "title": "Windows: an exception goes on to the program after the sinks were flushed", "statement": "A documented exception, in whatever thread it happens, is handed to every sink after everything logged before it, and then goes on: to the frame of the program that handles it, or it ends the process.", "quantifier": "For every thread, every exception code, every queue and set of sinks, and every schedule.", "why_tests_cant": "Needs exceptions inside the background thread and inside sinks; the failure is a process that hangs for ever.", "anchors": ["src/crashhandler_windows.cpp: vectorExceptionHandling, exceptionHandling", "src/logworker.cpp: bgFatal", "src/g3log.cpp: pushFatalMessageToLogger", "src/g3log/active.hpp: ~Active"]}
{"id": "C131", "title": "Under a fair scheduler every message arrives and every call returns, though logging never stops", "statement": "If the scheduler leaves neither the worker's thread nor the thread of a sink alone for ever, then every entry that a LOG call has handed over is received by every sink that was registered at that point of the queue, a fatal entry ends the process, and every call that has begun (LOG, addSink, removeSink, removeAllSinks, a call through a handle, the destructor) returns, no matter how much the clients go on logging and where other clients stop; the only exception is that the process ends before.", "quantifier": "For every number of clients and sinks and every infinite execution, fair to the worker, the sinks and (for its own call) the caller.", "why_tests_cant": "A statement about infinite executions: no test run is long enough to tell late from never.", "anchors": ["src/logworker.cpp: bgSave, bgFatal, addWrappedSink, LogWorker::~LogWorker", "src/g3log/logworker.hpp: removeSink, removeAllSinks", "src/g3log/active.hpp: run, ~Active", "src/g3log/sinkhandle.hpp: call", "src/g3log.cpp: pushMessageToLogger"]}
{"id": "C132", "title": "File sinks do not spoil each other's files", "statement": "Whatever file sinks exist, in one process or several, one after the other or at the same time, each finds its log files exactly as if it were the only one: no message in a file is lost to another sink.", "quantifier": "For all configurations, creation times, message sequences and interleavings of file accesses.", "why_tests_cant": "The names have a resolution of one second and all interleavings of any number of sinks matter.", "anchors": ["src/filesink.cpp: FileSink::FileSink, fileWrite, changeLogFile, ~FileSink", "src/filesinkhelper.ipp: createLogFileName, openLogFile, createLogFile, pathSanityFix"]}
{"id": "C133", "title": "Every file sink of a worker ends up with the whole log", "statement": "When ~LogWorker has returned, or the process has been killed after a fatal event, every file sink that was registered holds in its files one line for each statement logged meanwhile, in the order of the queue, each once, however many file sinks the worker has and however they were added.", "quantifier": "For all executions of the worker, its clients and any number of file sinks, all statements, all interleavings of the file accesses of the sinks.", "why_tests_cant": "The sinks have their own threads: the product of all executions of the worker with all interleavings of accesses to the files cannot be tried, nor can the statements.", "anchors": ["src/logworker.cpp: LogWorker::addDefaultLogger, ~LogWorker, bgSave, bgFatal", "src/g3log/filesink.hpp: FileSink", "src/filesink.cpp: fileWrite, ~FileSink", "src/filesinkhelper.ipp: createLogFileName, openLogFile"]}
{"id": "C134", "title": "Conflicting accesses are ordered by happens-before", "statement": "Two accesses of different threads to the same object of which one writes and one is not atomic are always ordered by happens-before (the order of each thread, mutexes, thread start and join, atomic variables) when threads call the queue, use the library as documented, log while one thread switches levels, or override the signals: no data race in the sense of the C++ standard. In general, an execution with unordered conflicting accesses exists exactly if in some interleaving two threads are about to make conflicting accesses.", "quantifier": "For every number of threads and calls and every execution; the equivalence for every program of locks, reads, writes and atomic accesses.", "why_tests_cant": "A race detector sees the executions that happen; unordered accesses may be far apart and mostly do no harm.", "anchors": ["src/g3log/shared_queue.hpp: push, try_and_pop, wait_and_pop", "src/g3log.cpp: initializeLogging, pushMessageToLogger, shutDownLogging", "src/loglevels.cpp", "src/crashhandler_unix.cpp: overrideSetupSignals"]}
{"id": "C135", "title": "The C++ memory model adds nothing to the interleavings", "statement": "Although the C++ memory model lets a thread find old values, every execution of the queue's calls, of the documented use, of logging while one thread switches levels and of overrideSetupSignals is an interleaving in which every read finds the last value written (except the on/off switches of the levels, which LOG may find old), and it has no data race.", "quantifier": "For every number of threads and calls and every execution in which each read finds any write not hidden from it by happens-before.", "why_tests_cant": "The processors at hand show few of the executions that the standard allows, and compilers change.", "anchors": ["src/g3log/shared_queue.hpp: push, try_and_pop, wait_and_pop", "src/g3log/active.hpp: run", "src/g3log.cpp: initializeLogging, pushMessageToLogger, shutDownLogging", "src/g3log/atomicbool.hpp", "src/loglevels.cpp"]}
{"id": "C136", "title": "With a fair scheduler and a fair mutex queue calls return and items come out", "statement": "When no thread is left alone for ever while it can go on, and no thread waits for ever for a mutex that becomes free again and again, every call of push, try_and_pop, empty and size returns; wait_and_pop of the only consumer returns the front item once there is one; with several consumers somebody takes an item whenever the queue is not empty and somebody waits; and if some consumer keeps calling wait_and_pop everything that was pushed is popped, in order, though pushing never stops.", "quantifier": "For every number of threads, every infinite execution with any calls at any time, including spurious wake-ups.", "why_tests_cant": "A test ends; starvation and lost wake-ups show only in runs that do not.", "anchors": ["src/g3log/shared_queue.hpp: push, try_and_pop, wait_and_pop, empty, size"]}
{"id": "C137", "title": "With a fair scheduler and a fair mutex an active object executes all it is sent and its calls return", "statement": "When the scheduler and the mutex of the queue starve nobody and no callback given to send throws, every call of send and spawn_task returns even if callbacks run for ever; if moreover every callback ends, everything sent before the destructor was called is executed to its end in the order of the queue, futures of such tasks become ready with the outcome of the task, and a call of the destructor returns.", "quantifier": "For every number of clients and every infinite execution, including callbacks that send, spurious wake-ups and clients that never stop sending.", "why_tests_cant": "A test ends; that a callback or a destructor is starved shows only in runs that do not.", "anchors": ["src/g3log/active.hpp: run, send, ~Active", "src/g3log/shared_queue.hpp: push, wait_and_pop", "src/g3log/future.hpp: spawn_task"]}
{"id": "C138", "title": "A write error of one file sink harms nothing but its own files", "statement": "When several file sinks have files of their own and writing fails for some of them at any access, no call ends otherwise than without the errors, a sink to which no error happens has every file exactly as without any errors, and so after the shutdown of the worker or a fatal event it holds the whole log; each file of the other sinks is a beginning of what it should be, possibly followed by pieces of it again, without gaps; files of nobody are not touched.", "quantifier": "For every number of sinks, every interleaving of their accesses, every pattern of write errors and every reachable state of the worker at the end of its destructor or at the fatal exit.", "why_tests_cant": "The error must strike one sink at a certain access while another works on; the patterns of errors and the interleavings are unbounded.", "anchors": ["src/filesink.cpp: fileWrite, addLogFileHeader, flush, changeLogFile, ~FileSink", "src/filesinkhelper.ipp: openLogFile, createLogFile", "src/logworker.cpp: bgSave, bgFatal, ~LogWorker"]}
{"id": "C139", "title": "The packaged_task for old Visual C++ does what the standard's does", "statement": "The replacement of std::packaged_task<void()> for Visual C++ up to 2013 behaves as the standard says: same results of every operation, same calls of the function, same contents of every future, whether the function returns or throws; in particular a task of spawn_task is run once and its future tells the outcome.", "quantifier": "For every program of constructions, moves, assignments, calls, get_future, valid, reset and destructions over any number of tasks, and every behaviour of the functions.", "why_tests_cant": "Needs a compiler of 2013; the difference shows only with functions that throw or tasks that are called twice or reset.", "anchors": ["src/g3log/stlpatch_future.hpp: packaged_task", "src/g3log/future.hpp: spawn_task"]}
{"id": "C140", "title": "Windows: the report in the sinks tells the event, its place and the right number", "statement": "A fatal event on Windows gives every sink a report with the time, the text of the handler with the name of the exception or signal and the process, the stack dump that the handler took (another one only if that is empty), and the last words with level and name; the number of the event survives its way through an int although exception codes do not fit one, and exitWithDefaultSignalHandler gets that number.", "quantifier": "For every signal, every 32 bit exception code, every process, dump, time and handler; for LOG(FATAL) and CHECK every statement.", "why_tests_cant": "The codes above INT_MAX and the undocumented ones, empty dumps and their combinations; needs Windows and crashes.", "anchors": ["src/crashhandler_windows.cpp: signalHandler, exceptionHandling, stackdump, exitReasonName", "src/g3log.cpp: saveMessage, saveFatalMessage", "src/logmessage.cpp: FatalMessage, reason", "src/logworker.cpp: bgFatal"]}
{"id": "C141", "title": "A fatal call does not return, also when its signal does not end the process", "statement": "When the signal of a fatal event, raised again with the original handling, does not end the process (process number 1, ignored, or a handler of the program that returns), the sinks are flushed, the process exits with the number of that signal, and until then no thread goes on behind its fatal statement.", "quantifier": "For every number of threads, sinks and static objects, every set of signals that do not kill and every schedule.", "why_tests_cant": "Needs a process with number 1, threads waking from their sleep while another one is inside exit, and static objects that own the logger.", "anchors": ["src/crashhandler_unix.cpp: signalHandler, shouldDoExit, exitWithDefaultSignalHandler", "src/g3log.cpp: pushFatalMessageToLogger", "src/logworker.cpp: bgFatal, LogWorker::~LogWorker", "src/g3log/logworker.hpp: removeAllSinks"]}
{"id": "C142", "title": "Windows: built without signal handling, the library leaves signals alone and fatal events still end the process", "statement": "Built with ENABLE_FATAL_SIGNALHANDLING=OFF the library changes the handler of no signal; LOG(FATAL) and CHECK still flush the sinks and end the process, and an exception that nobody handles ends it after the sinks were flushed.", "quantifier": "For every run of any number of threads that log, fail, raise signals and exceptions and set handlers of their own, with and without vectored exception handling.", "why_tests_cant": "Needs another build on Windows, and crashes whose end depends on which handlers are left.", "anchors": ["Options.cmake: ENABLE_FATAL_SIGNALHANDLING", "src/crashhandler_windows.cpp: restoreFatalHandlingToDefault, installSignalHandlerForThread, installCrashHandler, exitWithDefaultSignalHandler", "src/g3log.cpp: pushFatalMessageToLogger"]}
{"id": "C143", "title": "Windows: built without vectored exception handling, exceptions the program handles are left alone and others end it after the flush", "statement": "Built with ENABLE_VECTORED_EXCEPTIONHANDLING=OFF an exception that the program handles changes nothing; one that nobody handles is logged, whatever its code, and the process ends by it, not before every sink has got everything logged before and its message.", "quantifier": "For every run and schedule of any number of threads, every exception code, every queue and set of sinks, with and without signal handling.", "why_tests_cant": "Needs another build on Windows, and all interleavings of a crashing thread with the background thread and other threads.", "anchors": ["Options.cmake: ENABLE_VECTORED_EXCEPTIONHANDLING", "src/crashhandler_windows.cpp: unexpectedExceptionHandling, exceptionHandling, installCrashHandler, restoreFatalHandlingToDefault", "src/g3log.cpp: pushFatalMessageToLogger", "src/logworker.cpp: bgFatal"]}
{"id": "C144", "title": "Under the C++ memory model exactly one fatal signal is the first, and of two fatal events one is told of the other", "statement": "In every execution the C++ memory model allows, exactly one call of shouldDoExit returns true although its counter is incremented with relaxed order, and no call that happens after another one does. Of two fatal events, whichever threads they are in, at least one gets the warning of a recursive crash; a single fatal event never gets it. Only initializing logging between the two can hide them from each other.", "quantifier": "For every consistent execution of any number of threads and operations below 2^64 - 1, every other synchronization between them, and every choice of what each read reads.", "why_tests_cant": "Weakly ordered processors show reorderings rarely, a test sees one execution, and the allowed executions are not interleavings.", "anchors": ["src/crashhandler_unix.cpp: shouldDoExit, firstExit", "src/g3log.cpp: g_fatal_hook_recursive_counter, saveFatalMessage, initializeLogging"]}
{"id": "C145", "title": "Under the C++ memory model a check of a level finds the last setting that happened before it, and publishes what came before the setting", "statement": "In every execution the C++ memory model allows, a check of a level finds a setting that no setting known to the checking thread has replaced; if the settings are ordered with the check it finds the last one. Finding a changed level makes everything before the setting happen before what follows the check, so levels switched by disableAll or enableAll are seen switched in order, and a thread released from a fatal entry sees all that happened before the release. Settings of two levels by two threads have no order that all threads agree on.", "quantifier": "For every consistent execution of any number of threads and operations, every level, every initial setting and every other synchronization.", "why_tests_cant": "Weakly ordered processors show reorderings rarely, a test sees one execution, and the allowed executions are not interleavings.", "anchors": ["src/g3log/atomicbool.hpp: atomicbool", "src/loglevels.cpp: disableAll, enableAll, set, getStatus", "src/crashhandler_unix.cpp: gBlockForFatal, shouldBlockForFatalHandling, exitWithDefaultSignalHandler"]}
{"id": "C146", "title": "The generated header says exactly which build options were chosen, and the debug level has the name that was chosen", "statement": "Whatever the header was before, after configuration generated_definitions.hpp defines exactly the macros of the chosen options, each once; different choices give different headers, and configuring again with the same options does not touch the file. A program is refused by the check in loglevels.hpp exactly when it has a macro with the name of the debug level; otherwise the level has the name chosen. The comment there, that a program can define CHANGE_G3LOG_DEBUG_TO_DBUG itself, is true.", "quantifier": "For every combination of options and platform, every earlier content of the header and every set of macros of the program.", "why_tests_cant": "There are more than a thousand configurations, each needs its own configuration and build; the earlier content and the program's macros are unbounded.", "anchors": ["Options.cmake", "GenerateMacroDefinitionsFile.cmake", "src/g3log/loglevels.hpp: the check of DEBUG and DBUG, G3LOG_DEBUG", "src/g3log/g3log.hpp: G3LOG_PRETTY_FUNCTION"]}
