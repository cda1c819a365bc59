{"id": "C01", "title": "Only legal node state transitions", "statement": "Whatever its conditions evaluate to, a plan node only ever moves along the edges of the published PLEXIL state diagram for its node type: INACTIVE to WAITING or FINISHED; WAITING to EXECUTING, FINISHED or ITERATION_ENDED; EXECUTING to FINISHING, FAILING, ITERATION_ENDED or FINISHED as the type allows; and so on. In particular no state error branch ('invalid state') of the transition code is ever reached and only Empty nodes go directly from EXECUTING to FINISHED.", "quantifier": "all node types, all current states, all valuations of the 13 conditions (absent, unknown, true, false), all parent states, all failure types", "why_tests_cant": "The condition space is 4^13 per state and type; a test samples a few paths per type.", "anchors": ["src/exec/NodeImpl.cc: getDestState*, transition*", "src/exec/ListNode.cc", "src/exec/CommandNode.cc", "src/exec/AssignmentNode.cc", "src/exec/UpdateNode.cc"]}
{"id": "C02", "title": "Start, skip, exit, end, pre and post decide as documented", "statement": "A WAITING node begins EXECUTING exactly when no ancestor-exit, exit, ancestor-end or skip condition is true, no ancestor-invariant is known false, and its start and pre-conditions are absent or true; each other outcome (skipped, pre-condition failure, keep waiting) is likewise decided by the documented priority, and the same holds for EXECUTING, FINISHING, FAILING, ITERATION_ENDED, FINISHED and INACTIVE nodes of every type.", "quantifier": "all node types, states and condition valuations in three-valued logic", "why_tests_cant": "Priority among simultaneously true conditions cannot be enumerated by example plans.", "anchors": ["src/exec/NodeImpl.cc: getDestStateFromWaiting, getDestStateFromInactive, getDestStateFromIterationEnded", "src/exec/ListNode.cc", "src/exec/CommandNode.cc"]}
{"id": "C03", "title": "Outcome and failure type are coherent in every reachable state", "statement": "Along every execution: a node observed in ITERATION_ENDED or FINISHED always has an outcome; a SUCCESS or SKIPPED outcome never carries a failure type; FAILURE carries one of pre/post/invariant/parent-failed; INTERRUPTED carries exited or parent-exited; INACTIVE, WAITING and EXECUTING nodes have no outcome; a FAILING node already has outcome FAILURE or INTERRUPTED.", "quantifier": "all plans, all node types, all condition histories, any number of repetitions", "why_tests_cant": "The outcome is written in one transition and read iterations later; only an invariant over all histories excludes stale values.", "anchors": ["src/exec/NodeImpl.cc: transition, reset, setNodeOutcome, setNodeFailureType"]}
{"id": "C04", "title": "Every node sits in at most one executive queue and its queue status says which", "statement": "At every point of every execution, each node occurs at most once in the union of candidate, pending, state-change and finished-root queues, and a node whose status says it is in the candidate, state-change or finished queue really is in that queue.", "quantifier": "all plans, all notification orders, all condition histories", "why_tests_cant": "The queues share one intrusive link per node; a double enqueue corrupts memory only on particular notification orders.", "anchors": ["src/exec/PlexilExec.cc: addStateChangeNode, addPendingNode, removePendingNode, getCandidateNode, addFinishedRootNode", "src/exec/NodeImpl.cc: notify, notifyResourceAvailable", "src/exec/Node.hh: QueueStatus"]}
{"id": "C05", "title": "Mutual exclusion of mutex users", "statement": "Two different nodes that both declare use of the same mutex are never simultaneously EXECUTING, FINISHING or FAILING.", "quantifier": "all plans, all sets of mutexes per node, all priorities, all notification orders and condition histories", "why_tests_cant": "Exclusion is a property of every interleaving of acquisition attempts and releases.", "anchors": ["src/exec/NodeImpl.cc: tryResourceAcquisition, transitionToIterationEnded, transitionToFinished", "src/exec/PlexilExec.cc: resolveResourceConflicts", "src/expr/Reservable.cc: acquire, release"]}
{"id": "C06", "title": "A node that has finished holds no mutex", "statement": "Once a node reaches ITERATION_ENDED or FINISHED, every mutex it acquired for that iteration has been released, so other nodes can proceed.", "quantifier": "all plans, node types, condition histories", "why_tests_cant": "The release depends on which edge led to FINISHED; rare edges (parent exits or fails) are the ones tests skip.", "anchors": ["src/exec/NodeImpl.cc: transitionToFinished, transitionToIterationEnded"]}
{"id": "C07", "title": "Resource acquisition is all-or-nothing", "statement": "A node's attempt to acquire its mutexes and, for an assignment, its variable either takes every one of them, or leaves the node holding none of the mutexes it did not already hold before and registered as a waiter on each; in neither case does it take a resource held by another node.", "quantifier": "all lists of mutexes (any length, duplicates allowed), all holder configurations", "why_tests_cant": "Partial failure depends on which of n mutexes is busy: 2^n configurations for every n.", "anchors": ["src/exec/NodeImpl.cc: tryResourceAcquisition, releaseResourceReservations", "src/expr/Reservable.cc"]}
{"id": "C08", "title": "No lost wake-ups for nodes waiting on resources", "statement": "If a condition of a node changes while the node is waiting for a mutex or variable, the executive re-evaluates the node; in particular a node that stopped being eligible and later becomes eligible again is considered again.", "quantifier": "all notification sequences and condition histories", "why_tests_cant": "The loss needs a specific order: pending, condition false, condition true.", "anchors": ["src/exec/PlexilExec.cc: resourceCheckEligible, resolveResourceConflicts", "src/exec/NodeImpl.cc: notify"]}
{"id": "C09", "title": "Children only run while their parent is running", "statement": "Whenever a node is EXECUTING, FINISHING, FAILING or ITERATION_ENDED, its parent is EXECUTING, FINISHING or FAILING.", "quantifier": "all plan trees, all condition histories, all steps", "why_tests_cant": "A parent and child may be scheduled in the same batch of transitions; whether both can fire depends on the history of condition values.", "anchors": ["src/exec/ListNode.cc: getDestStateFromFinishing, getDestStateFromFailing", "src/exec/NodeImpl.cc: getDestStateFromWaiting", "src/exec/PlexilExec.cc: step"]}
{"id": "C10", "title": "A list node ends an iteration only when every child is waiting or finished", "statement": "A list (or library call) node leaves FINISHING or FAILING for ITERATION_ENDED or FINISHED only at a decision point where all its children are WAITING or FINISHED; with the default end condition it leaves EXECUTING normally only if all children are FINISHED.", "quantifier": "all child lists (any number), all child states", "why_tests_cant": "Quantifies over arbitrarily many children.", "anchors": ["src/exec/ListNode.cc: AllFinished, AllWaitingOrFinished, getDestStateFromFinishing, getDestStateFromFailing"]}
{"id": "C11", "title": "Finished root nodes are retired exactly once", "statement": "A root node is put on the finished list exactly when it becomes FINISHED, is never a candidate for execution afterwards, and deleting finished plans removes exactly the finished roots from the active plans.", "quantifier": "all plans and histories", "why_tests_cant": "Needs an invariant over all executions.", "anchors": ["src/exec/NodeImpl.cc: setState", "src/exec/PlexilExec.cc: markRootNodeFinished, addFinishedRootNode, deleteFinishedPlans, allPlansFinished"]}
{"id": "C12", "title": "Pending nodes are served by priority, then first come first served", "statement": "The pending queue is always ordered by numerically lowest priority first and, among equals, by time of insertion.", "quantifier": "all insertion and removal sequences, all priorities", "why_tests_cant": "Stability under arbitrary sequences is not testable by samples.", "anchors": ["src/utils/LinkedQueue.hh: PriorityQueue::insert", "src/exec/PlexilExec.cc: PriorityCompare, resolveResourceConflicts"]}
{"id": "C13", "title": "A macro step always terminates", "statement": "Calling step() on any plan returns: the quiescence loop reaches a state in which no node can transition or an assignment or command is to be performed.", "quantifier": "all plans, all condition valuations", "why_tests_cant": "Termination is a property of unbounded executions.", "anchors": ["src/exec/PlexilExec.cc: step"]}
{"id": "C14", "title": "Aborted assignments restore the variable", "statement": "If an assignment node is aborted before completing, the variable gets back exactly the value (known or unknown) it had when the assignment was started; a completed assignment leaves exactly the value of the right-hand side at the time the node started executing.", "quantifier": "all variable values incl. unknown, all right-hand sides, any interleaving with changes of the right-hand side", "why_tests_cant": "Needs all values and all interleavings.", "anchors": ["src/exec/Assignment.cc: activate, fixValue, execute, retract", "src/expr/UserVariable.cc: saveCurrentValue, restoreSavedValue, getSavedValue"]}
{"id": "C15", "title": "Command acknowledgements are only honoured while the command is active", "statement": "A command handle, return value or abort acknowledgement arriving while the command is not active changes nothing observable; arriving while active it sets exactly that value; activation clears handle and abort status.", "quantifier": "all sequences of activate, deactivate, acknowledgement, return and abort events", "why_tests_cant": "External events arrive in any order relative to the node's life cycle.", "anchors": ["src/intfc/CommandImpl.cc"]}
{"id": "C16", "title": "Resource arbiter partitions, respects priority and never over-allocates", "statement": "Given the commands of one step, each is either accepted or rejected, never both or neither; for commands with non-negative resource demands and hierarchies without cycles the sum of allocated amounts never exceeds a resource's maximum; a command is rejected only if it could not be added to the commands accepted before it.", "quantifier": "all command batches, priorities, resource hierarchies and histories of acceptance and release", "why_tests_cant": "Quantifies over batches of any size and any release history.", "anchors": ["src/intfc/ResourceArbiterInterface.cc"]}
{"id": "C17", "title": "Serialized values and states decode to themselves", "statement": "For every value of a supported type, and every lookup or command state built from such values, deserializing its serialized form yields an equal value and consumes exactly the bytes written, regardless of what follows in the buffer.", "quantifier": "all values: Booleans, 32-bit integers, doubles, strings and arrays of any size up to the format limit, with any known/unknown pattern; all state names and parameter lists", "why_tests_cant": "Sizes up to 2^24 and all contents; boundary sizes fail only at particular byte values.", "anchors": ["src/value/Value.cc", "src/value/PlexilTypeTraits.hh", "src/value/ArrayImpl.cc", "src/value/Array.cc", "src/intfc/State.cc"]}
{"id": "C18", "title": "Serialized size is exact", "statement": "The size announced for a value or state before serialization equals the number of bytes serialization writes, so a buffer of that size is neither overrun nor left partly unwritten.", "quantifier": "all values and states within format limits", "why_tests_cant": "A one-byte discrepancy on some size class is invisible to samples.", "anchors": ["src/value/Value.cc: serialSize", "src/value/ArrayImpl.cc: serialSize", "src/intfc/State.cc: serialSize"]}
{"id": "C19", "title": "Value equality is an equivalence and agrees across numeric types", "statement": "Value equality is reflexive (for non-NaN), symmetric and transitive; integers compare equal to numerically equal reals; unknown equals unknown of the same kind only and never a known value.", "quantifier": "all values and triples of values", "why_tests_cant": "Transitivity over mixed types needs all triples.", "anchors": ["src/value/Value.cc: equals, operator=="]}
{"id": "C20", "title": "Value, array and state ordering is a strict weak order", "statement": "The < relation on values, arrays and states used as map keys is irreflexive, asymmetric and transitive, with transitive incomparability, so every std::map or sort keyed by them behaves correctly.", "quantifier": "all triples of values, arrays, states", "why_tests_cant": "Violations corrupt maps only for specific triples.", "anchors": ["src/value/Value.cc: lessThan", "src/value/ArrayImpl.cc: operator<", "src/intfc/State.cc: operator<"]}
{"id": "C21", "title": "Three-valued Boolean operators implement Kleene logic", "statement": "NOT, AND, OR and XOR over any number of operands return true, false or unknown exactly as Kleene's strong three-valued logic prescribes, independent of operand order.", "quantifier": "operand lists of any length with any mix of true, false, unknown", "why_tests_cant": "Operand count is unbounded; three-or-more operand code differs from the one- and two-operand code.", "anchors": ["src/expr/BooleanOperators.cc"]}
{"id": "C22", "title": "Integer arithmetic is exact or reported", "statement": "Integer addition, subtraction, multiplication, division, remainder, minimum, maximum, absolute value and conversions return the exact mathematical result when it fits 32 bits and unknown when an operand is unknown or a divisor is zero.", "quantifier": "all pairs of 32-bit integers and operand lists of any length", "why_tests_cant": "2^64 operand pairs.", "anchors": ["src/expr/ArithmeticOperators.cc", "src/expr/ConversionOperators.cc"]}
{"id": "C23", "title": "Comparisons are unknown exactly when an operand is unknown, and consistent", "statement": "Equality, inequality and order comparisons yield unknown exactly when an operand is unknown; otherwise = and != are complementary, < and >= are complementary on non-NaN numbers, and a > b iff b < a.", "quantifier": "all operand pairs", "why_tests_cant": "Quantifies over all pairs of values.", "anchors": ["src/expr/Comparisons.cc"]}
{"id": "C24", "title": "The intrusive queue behaves as a FIFO list", "statement": "Any sequence of push, pop, remove, remove_if, clear behaves like the same sequence on a mathematical list: front is the oldest element, size is exact, removed items have a null link, other items keep their order; no null dereference occurs.", "quantifier": "all operation sequences on any number of items", "why_tests_cant": "Pointer structures fail only on particular sequences (empty, single element, tail removal).", "anchors": ["src/utils/LinkedQueue.hh: LinkedQueue"]}
{"id": "C25", "title": "Reservable resources have one holder and wake their waiters", "statement": "A resource is granted only when free, is released only by its holder, and on release every registered waiter is notified once in registration order.", "quantifier": "all sequences of acquire, release, add-waiter and remove-waiter by any number of nodes", "why_tests_cant": "Sequences are unbounded.", "anchors": ["src/expr/Reservable.cc"]}
{"id": "C26", "title": "State cache delivers every change to every registered lookup", "statement": "After an update of a state's value, every lookup registered for that state that asked for changes is notified when the value changed, none is notified when it did not, and reading the lookup yields the last accepted value.", "quantifier": "all sequences of registration, unregistration and updates, all value types", "why_tests_cant": "Histories are unbounded.", "anchors": ["src/intfc/StateCacheEntry.cc", "src/intfc/CachedValueImpl.cc", "src/intfc/StateCache.cc", "src/intfc/Lookup.cc"]}
{"id": "C27", "title": "LookupOnChange tolerance", "statement": "A change lookup with tolerance keeps its reported value while the external value stays strictly within the tolerance of the reported value, and reports the new value as soon as it differs by at least the tolerance.", "quantifier": "all numeric update sequences and tolerances", "why_tests_cant": "Sequences of updates with drift are unbounded.", "anchors": ["src/intfc/Lookup.cc: LookupOnChange, ThresholdCacheImpl", "src/intfc/StateCacheEntry.cc: updateThresholds"]}
{"id": "C28", "title": "The input queue is a lossless FIFO", "statement": "Entries posted by interface adapters are delivered to the executive in posting order, each exactly once, and recycled entries carry nothing over from earlier use.", "quantifier": "all interleavings of put, get, allocate, release and flush", "why_tests_cant": "Interleavings are unbounded.", "anchors": ["src/app-framework/SimpleInputQueue.cc", "src/app-framework/SerializedInputQueue.cc", "src/intfc/QueueEntry.cc"]}
{"id": "C29", "title": "External events take effect in order", "statement": "Processing the input queue applies lookup updates, acknowledgements, return values, messages and plan additions in the order in which they were posted, each exactly once; calls with null pointers or empty handles do nothing and invalid command handle values count as interface errors; every effect is followed by a step of the executive before the worker leaves it; only one thread at a time works on the executive.", "quantifier": "all interleavings, statement by statement, of any number of posting threads with the worker thread; all executives", "why_tests_cant": "Interleavings and histories are unbounded.", "anchors": ["src/app-framework/InterfaceManager.cc: processQueue"]}
{"id": "C30", "title": "Expression activation is balanced", "statement": "An expression is active exactly while it has been activated more often than deactivated; its sources are activated and deactivated exactly on the 0/1 boundary; listeners are informed of changes only while it is active, in registration order, and each at most once.", "quantifier": "all sequences of activate, deactivate, add/remove listener and publish on any expression graph node", "why_tests_cant": "Unbounded sequences.", "anchors": ["src/expr/Notifier.cc", "src/expr/Propagator.cc", "src/expr/Function.cc"]}
{"id": "C31", "title": "Variable semantics", "statement": "Reading an active variable yields the last value assigned since activation, or its initial value, or unknown if neither; assigning unknown makes it unknown; deactivation and reactivation reset it to its initial value.", "quantifier": "all sequences of activation, assignment, reset, save, restore", "why_tests_cant": "Unbounded sequences.", "anchors": ["src/expr/UserVariable.cc", "src/expr/SimpleBooleanVariable.cc", "src/expr/ArrayVariable.cc"]}
{"id": "C32", "title": "Array element access is bounds-checked and independent", "statement": "Writing element i of an array changes element i only; reading outside the bounds yields unknown or a plan error, never another element; resizing keeps existing elements and adds unknown ones.", "quantifier": "all arrays, indices, values", "why_tests_cant": "All sizes and indices.", "anchors": ["src/value/Array.cc", "src/value/ArrayImpl.cc", "src/expr/ArrayReference.cc"]}
{"id": "C33", "title": "Node timepoints record the right transition", "statement": "For every execution, the start (end) time of a state is the time of the most recent entry into (exit from) that state since, and including, the transition that last reset the node to INACTIVE, and unknown if there was none; listeners are told of every change; the start time of the current state is the time of the last transition.", "quantifier": "all transition histories", "why_tests_cant": "Unbounded histories.", "anchors": ["src/exec/NodeImpl.cc: logTransition, getStateStartTime", "src/exec/NodeTimepointValue.cc"]}
{"id": "C34", "title": "Real-to-integer conversions are exact or unknown", "statement": "Ceiling, floor, round, truncate and real-to-integer return the mathematically correct integer when it is representable in 32 bits and unknown otherwise.", "quantifier": "all doubles", "why_tests_cant": "2^64 inputs with boundary cases near +-2^31.", "anchors": ["src/expr/ConversionOperators.cc"]}
{"id": "C35", "title": "Condition activations are balanced over a node's life", "statement": "Along every execution, in each state exactly the documented conditions of a node are active, once each, and only active conditions are consulted when the next state is decided.", "quantifier": "all node types and all histories of transitions", "why_tests_cant": "Activation counts drift only along particular paths through the state diagram.", "anchors": ["src/exec/NodeImpl.cc: transitionFrom*, transitionTo*", "src/exec/CommandNode.cc: transitionToExecuting", "src/exec/ListNode.cc", "src/exec/AssignmentNode.cc", "src/exec/UpdateNode.cc"]}
{"id": "C36", "title": "The executive's internal error checks do not fire", "statement": "Whatever plans are loaded and events arrive, none of the executive's internal consistency checks (node added to a queue it is already in, invalid pending status, invalid transition, finished root still busy) fires.", "quantifier": "all plans, histories, notification orders", "why_tests_cant": "Each check guards a state thought unreachable; only an invariant over all executions shows it is.", "anchors": ["src/exec/PlexilExec.cc: addStateChangeNode, resourceCheckEligible, addFinishedRootNode", "src/exec/NodeImpl.cc: notify, transition"]}
{"id": "C37", "title": "The reported transition history is faithful", "statement": "The transitions published for each node form, in order, an unbroken path of legal moves from INACTIVE to the node's current state: nothing is omitted, duplicated or reordered.", "quantifier": "all plans, histories", "why_tests_cant": "Listeners see histories of unbounded length.", "anchors": ["src/exec/NodeImpl.cc: transition", "src/exec/PlexilExec.cc: step", "src/intfc/ExecListenerHub"]}
{"id": "C38", "title": "Commands, updates and assignments are issued exactly once per execution", "statement": "Each time a Command, Update or Assignment node enters EXECUTING its action is carried out exactly once by the end of the step, each time a Command or Assignment enters FAILING it is aborted exactly once, and never otherwise.", "quantifier": "all plans, histories, repetitions", "why_tests_cant": "A duplicated or lost action depends on when nodes enter states relative to the queues being flushed.", "anchors": ["src/exec/PlexilExec.cc: step, performAssignments, executeOutboundQueue", "src/exec/CommandNode.cc", "src/exec/UpdateNode.cc", "src/exec/AssignmentNode.cc"]}
{"id": "C39", "title": "Synchronous semantics of a quiescence pass", "statement": "Within one pass of the quiescence loop all nodes decide on the same snapshot: every state change is the decision taken in the state before any node of that pass moved, and every eligible candidate that needs no resource moves regardless of the others.", "quantifier": "all plans, snapshots, notification orders", "why_tests_cant": "Order dependence shows only for particular sets of simultaneously enabled nodes.", "anchors": ["src/exec/PlexilExec.cc: step"]}
{"id": "C40", "title": "All-plans-finished is reported correctly", "statement": "The executive reports that all plans have finished exactly when every active plan's root is FINISHED and there is an active plan or finished plans have been deleted.", "quantifier": "all executive states", "why_tests_cant": "Any number of plans in any states.", "anchors": ["src/exec/PlexilExec.cc: allPlansFinished, deleteFinishedPlans"]}
{"id": "C41", "title": "Learning more never retracts a known Boolean result", "statement": "Evaluating a nested Boolean expression with some operands unknown gives a known result only if that result holds however the unknown operands turn out: making unknown operands known never changes a result that was already known.", "quantifier": "all Boolean expressions of any depth, all assignments of known/unknown operands and their refinements", "why_tests_cant": "Quantifies over all expressions and all completions of the unknown operands.", "anchors": ["src/expr/BooleanOperators.cc", "src/expr/Function.cc"]}
{"id": "C42", "title": "No notification is lost", "statement": "In background mode, whenever the worker sleeps (and is not suspended), everything posted before any completed notification has been applied, every effect has been followed by a step, and the executive needs no further step.", "quantifier": "all interleavings of any number of threads posting, notifying, suspending, resuming, stopping and querying, with the worker thread; all executives", "why_tests_cant": "Lost wake-ups appear only in rare interleavings.", "anchors": ["src/app-framework/ExecApplication.cc: runExec, worker, waitForExternalEvent, notifyExec, suspend, resume"]}
{"id": "C43", "title": "notifyAndWaitForCompletion waits for completion", "statement": "notifyAndWaitForCompletion returns only after everything posted before the call has been processed, and does return.", "quantifier": "all interleavings of any number of callers with the worker thread", "why_tests_cant": "Interleavings are unbounded; the defects need three threads.", "anchors": ["src/app-framework/ExecApplication.cc: notifyAndWaitForCompletion, markProcessed", "src/app-framework/InterfaceManager.cc: markQueue"]}
{"id": "C44", "title": "Opportunistic execution", "statement": "With setRunExecInBkgndOnly(false), notifyExec on an idle executive runs it in the calling thread.", "quantifier": "all histories before and after the call", "why_tests_cant": "Needs every continuation of the call.", "anchors": ["src/app-framework/ExecApplication.cc: notifyExec, runExec, setRunExecInBkgndOnly"]}
{"id": "C45", "title": "stop() ends the worker", "statement": "Once stop() waits for the worker, a waiting worker always wakes up, sees the request and ends, without running the executive again; stop() goes on only when the worker has ended.", "quantifier": "all interleavings of any number of threads with the worker thread", "why_tests_cant": "Interleavings are unbounded.", "anchors": ["src/app-framework/ExecApplication.cc: stop, worker, waitForExternalEvent"]}
{"id": "C46", "title": "waitForPlanFinished", "statement": "waitForPlanFinished returns only when all plans are finished.", "quantifier": "all interleavings of callers with the worker thread", "why_tests_cant": "Depends on the history of notifications.", "anchors": ["src/app-framework/ExecApplication.cc: waitForPlanFinished, runExec"]}
{"id": "C47", "title": "A plan sees exactly the messages it was given", "statement": "In every history, the lookups HaveMessage, PeekAtMessage and PeekAtMessageSender show the message at the head of the queue as last reported by the messaging interface; after a message was accepted under a handle, the lookups MessageText, MessageSender, MessageArrived, MessageParameterCount and MessageParameter of that handle show that message's data until the handle is released, and are unknown otherwise. Messages leave the message adapter in arrival order.", "quantifier": "every history of message arrivals, acceptances, releases, lookup activations, parameter changes and other state updates; every number of handles, messages, parameters and lookups", "why_tests_cant": "stale or missing data depends on the order of arrivals, handle reuse and which lookups are active at a release; the tests accept one message", "anchors": ["src/intfc/StateCache.cc: messageReceived, messageQueueEmpty, assignMessageHandle, releaseMessageHandle, deleteStateCacheEntry", "src/app-framework/MessageAdapter.cc: acceptMessage, enqueueMessage, releaseMessageHandleHandler", "src/app-framework/InterfaceManager.cc: notifyMessageAccepted"]}
{"id": "C48", "title": "Real arithmetic is correctly rounded and unknown exactly when it has no value", "statement": "Applied to finite Real operands, +, -, *, / and SQRT yield the exact real result rounded to the nearest double (ties to even), or an infinity of the right sign when that exceeds the double range; MOD yields the exact remainder of the truncated division; n-ary +, - and * round once per step from left to right, so the error of a sum is bounded by the sum of the magnitudes times (1+2^-53)^(n-1)-1; unary minus and ABS are exact; MIN and MAX return an operand not above/below any other. The result is unknown exactly when an operand is unknown, the divisor is zero, or SQRT's operand is negative.", "quantifier": "every pair, triple, ... of IEEE binary64 operands, known or unknown, finite, infinite or NaN; any number of operands", "why_tests_cant": "2^128 operand pairs per operator; rounding, overflow and cancellation corner cases are not covered by a few literals", "anchors": ["src/expr/ArithmeticOperators.cc: Addition, Subtraction, Multiplication, Division, Modulo, Minimum, Maximum, AbsoluteValue, SquareRoot (Real instances)"]}
{"id": "C49", "title": "A requested wake-up is not lost", "statement": "If the executive asks the POSIX time base, in deadline mode, for a wake-up at time d, then once the clock is past d and all callbacks have run the executive has been notified after that request, at an instant when the current time it reads is at least d, whatever requests, expirations and callbacks came before, provided no timer callback re-arms the timer while a request of the executive is in progress; and after the deadline the timer threads come to rest.", "quantifier": "all histories of requests, clock advances, timer expirations and interleavings of the executive with any number of callback threads", "why_tests_cant": "the loss needs a timer expiration in a window of a few instructions; a test cannot enumerate interleavings", "anchors": ["src/app-framework/PosixTimebase.cc: setTimer, start", "src/app-framework/TimeAdapter.cc: timerTimeout, setThresholds", "src/app-framework/ItimerTimebase.cc: setTimer", "src/app-framework/Timebase.cc: getTime"]}
{"id": "C50", "title": "Time arithmetic is exact", "statement": "Sum and difference of two normalized (seconds, subseconds) times are normalized and exact; <, > and == order them by the time they denote; converting a wake-up time (a double between July 1970 and 2^53 s) to a timespec and back gives the same double, and the timespec is within 2 ns; the clock read as a double never goes back when the clock advances, and is at least d once the clock reached the timespec of d.", "quantifier": "all normalized pairs, all doubles in the range, all clock values", "why_tests_cant": "2^64 doubles and all pairs of times; rounding twice could be off by one unit for rare values", "anchors": ["src/utils/timespec-utils.cc: timespecNormalize, operators, doubleToTimespec, timespecToDouble", "src/utils/timeval-utils.cc", "src/app-framework/Timebase.cc: getTime"]}
{"id": "C51", "title": "Tick mode and restart", "statement": "In tick mode the timer repeats with exactly the configured number of microseconds; a time base that was stopped can be started again.", "quantifier": "all 2^32 interval settings; all start/stop sequences", "why_tests_cant": "the overflow appears only above an interval no test waits for", "anchors": ["src/app-framework/PosixTimebase.cc: start, stop", "src/app-framework/ItimerTimebase.cc: start, stop"]}
{"id": "C52", "title": "Lexical scoping of variables", "statement": "In every plan that loads, a variable name used in a node means: the node's own variable; else its In/InOut parameter, tied to what the name means outside the node; else what it means in the enclosing node. Inside a called library, the outside is the arguments of the call and nothing else of the caller.", "quantifier": "all plans (any nesting of lists and library calls, any declarations), all names", "why_tests_cant": "nesting depth, shadowing and library boundaries combine without bound; a wrongly captured variable is only seen with the one unlucky combination of names", "anchors": ["src/exec/NodeImpl.cc: findVariable, allocateVariables", "src/exec/ListNode.cc: getChildVariableMap", "src/exec/LibraryCallNode.cc: getChildVariableMap, addAlias", "src/exec/NodeVariableMap.cc: findVariable", "src/xml-parser/parseNode.cc", "src/xml-parser/parseLibraryCall.cc: finalizeAliases"]}
{"id": "C53", "title": "In and InOut parameters", "statement": "An In parameter has its declared type, shows the value of the caller's (or ancestor's) variable or argument, or its default, and gives no way to change it. An InOut parameter is the caller's (or ancestor's) very variable, of the declared type and assignable, or a variable of its own initialised with the default.", "quantifier": "all plans that load, all parameters of all nodes", "why_tests_cant": "read-only must hold for every way of writing in every nesting", "anchors": ["src/xml-parser/parseNode.cc: linkInVar, linkInOutVar, parseVariableInitializer", "src/xml-parser/createExpression.cc: createAssignable", "src/xml-parser/ArrayReferenceFactory.cc: createMutableArrayReference", "src/expr/Alias.cc", "src/expr/ArrayReference.cc: MutableArrayReference", "src/xml-parser/UserVariableFactory.cc"]}
{"id": "C54", "title": "Which mutex a name means", "statement": "A UsingMutex name that is accepted when a plan is loaded is resolved to the nearest declaration of that mutex in the node or its ancestors in the same document, else to the document's global mutex.", "quantifier": "all plans and libraries, all mutex names, all callers", "why_tests_cant": "the library author cannot test with every caller's names", "anchors": ["src/xml-parser/parseNode.cc: isMutexInScope, initializeNodeMutexes", "src/exec/NodeImpl.cc: findMutex", "src/exec/Mutex.cc: getGlobalMutex"]}
{"id": "C55", "title": "Which node a reference means", "statement": "A node reference (self, parent, child, sibling, or NodeId) accepted when the plan is loaded is resolved in the running plan to the node it names in its own document, the nearest one for a NodeId, and never to a node of a calling plan or to an error.", "quantifier": "all plans and libraries, all references, all callers", "why_tests_cant": "the check runs on the XML, the resolution on the expanded tree; they must agree for every plan", "anchors": ["src/xml-parser/parseNodeReference.cc", "src/exec/ListNode.cc: findChild", "src/xml-parser/parseNode.cc: checkChildNodes"]}
{"id": "C56", "title": "Sorted-vector map and set", "statement": "SimpleMap and SimpleSet behave as a finite map and a finite set: insert keeps an existing entry, operator[] creates a missing one with the default value, find finds exactly the keys present, erase removes only its element, iteration is in key order with each key once and does not depend on the insertion order.", "quantifier": "all sequences of operations, all keys over any strict total order (C strings and std::string included)", "why_tests_cant": "binary search errors depend on the size and the position; sequences are unbounded", "anchors": ["src/utils/SimpleMap.hh", "src/utils/SimpleSet.hh", "src/utils/map-utils.hh: CStringComparator"]}
{"id": "C57", "title": "Expansion of library calls", "statement": "Loading a plan ends: every library call is replaced by the called library's tree, recursively, or an error is reported; a library that calls itself, directly or through others, is reported as an error.", "quantifier": "all plans, all collections of libraries, any call graph", "why_tests_cant": "call graphs are unbounded; non-termination cannot be observed by a test", "anchors": ["src/xml-parser/parseLibraryCall.cc: constructLibraryCall", "src/xml-parser/planLibrary.cc: getLibraryNode, loadLibraryNode", "src/xml-parser/parseNode.cc: constructNode, constructChildNodes"]}
{"id": "C58", "title": "Which expressions load", "statement": "The loader accepts an expression exactly when it is well typed: each operation has the number and types of operands it is defined for (Integers standing for Reals, timepoints and durations being Reals), and the type of its result follows. A condition loads exactly when it is Boolean, an assignment exactly when its right-hand side may be assigned to the variable's type. The type found by the check pass is the type of the object built. Loading never reads out of bounds.", "quantifier": "all expressions of any depth over all operations, variables, literals, array elements and lookups, all types asked for by the context", "why_tests_cant": "two passes over unboundedly many expressions must agree with each other and with the language's typing rules", "anchors": ["src/xml-parser/Operations.cc, OperationFactory.cc: check, allocate", "src/xml-parser/ArrayReferenceFactory.cc, LookupFactory.cc", "src/xml-parser/createExpression.cc", "src/xml-parser/parseNode.cc (conditions)", "src/xml-parser/parseAssignment.cc", "src/value/ValueType.cc: areTypesCompatible", "src/expr/Operator.hh, ArithmeticOperators.cc, BooleanOperators.cc, Comparisons.cc, StringOperators.cc, ArrayOperators.cc, ConversionOperators.cc: checkArgCount, checkArgTypes"]}
{"id": "C59", "title": "Well-typed expressions evaluate", "statement": "Evaluating an expression that has been loaded never stops the executive with a type error, whatever the values of its variables and lookups, and a known result is a value of the expression's type. A condition can always be read as a Boolean, an assignment always stores a value of the variable's type or unknown.", "quantifier": "all loaded expressions, all values of variables, array elements and lookups of the declared types", "why_tests_cant": "depends on the values at run time and on the dispatch over value types in every operator", "anchors": ["src/expr/Operator.hh, OperatorImpl.hh", "src/expr/Function.cc", "src/expr/GetValueImpl.hh", "src/expr/ArrayReference.cc", "src/intfc/Lookup.cc, CachedValueImpl.hh", "src/exec/Assignment.cc, src/expr/UserVariable.cc: setValue"]}
{"id": "C60", "title": "A UDP message carries exactly its arguments, and neither end leaves its buffer", "statement": "For every message definition the UDP adapter accepts: the command that sends it writes only inside its buffer and either fails or sends a datagram of exactly the defined size; it is sent exactly when its arguments fit the declared parameters; a receiver with the same definition gets back the same Integers, Booleans and Strings and the Reals rounded to single precision, whatever its buffer held before; and no datagram, whatever its bytes or length, makes the receiver read outside its buffer or deliver a value of another type than declared.", "quantifier": "all accepted message definitions, all argument lists, all received byte strings and all previous buffer contents", "why_tests_cant": "The space of definitions, argument values (all 32-bit integers, all doubles, all strings) and received datagrams is unbounded; a test fixes one definition and a few values.", "anchors": ["src/interfaces/UdpAdapter/UdpAdapter.cc: parseMessageDefinition, buildUdpBuffer, executeDefaultCommand, handleUdpMessage", "src/interfaces/UdpAdapter/udp-utils.cc: encode_*, decode_*", "src/interfaces/UdpAdapter/UdpEventLoop.cc: Listener::handleFDReady"]}
{"id": "C61", "title": "Each received message goes to exactly one waiting command, in order, and parameters go with their message", "statement": "For every sequence of ReceiveCommand and GetParameter commands and received datagrams, in any order: the i-th ReceiveCommand of a message name returns the label of the i-th datagram of that message, and GetParameter on that label returns that datagram's value for that parameter, to the first command that asks and only to it; no message is lost, duplicated, reordered or handed to a command waiting for something else.", "quantifier": "all histories of commands and datagrams, any number of messages, recipients and parameters; all interleavings of the two threads", "why_tests_cant": "Pairing depends on the order of an unbounded number of requests and arrivals and on thread interleavings; a test exercises one order.", "anchors": ["src/interfaces/UdpAdapter/MessageQueueMap.cc (same file in IpcAdapter): addRecipient, addMessage, updateQueue, ensureQueue", "src/interfaces/UdpAdapter/UdpAdapter.cc: executeReceiveCommandCommand, executeGetParameterCommand, handleUdpMessage, formatMessageName"]}
{"id": "C62", "title": "The UDP event loop delivers every open port's datagrams in order and keeps running", "statement": "For every sequence of opening and closing ports and of datagrams arriving, however the event thread interleaves: while a port is open its listener is called once for each datagram of its socket, in order, cut to its size; a closed port's listener is not called; the event thread never blocks on one port or ends while others are open, and requests are always served.", "quantifier": "all histories of open, close, arrival, poll and dispatch steps, any number of ports and datagrams", "why_tests_cant": "The state of the descriptor tables depends on the whole history of opens and closes, and failures show only under particular repetitions; a test opens and closes one port.", "anchors": ["src/interfaces/UdpAdapter/UdpEventLoop.cc: openListener, closeListener, eventLoop, addListener, removeListener, handleFDReady"]}
{"id": "C63", "title": "Literals and names mean what they say", "statement": "A Boolean, Integer, Real or array literal, an array size, a priority, a type name, a state, outcome, failure or command handle name in a plan is read as the value its text denotes (an Integer in decimal, octal or hexadecimal notation that fits 32 bits; a Real as the nearest double), UNKNOWN as unknown, and every other text makes loading fail; printing an Integer, a Boolean or a Real with at most 15 significant digits and reading it back gives the same value.", "quantifier": "all texts (any length, any characters), all Integers, all Reals", "why_tests_cant": "the texts are unbounded and the corner cases (signs, prefixes, blanks, overflow, rounding of decimal fractions) cannot be enumerated", "anchors": ["src/value/ValueType.cc: parseValue, printValue, parseValueType", "src/utils/stricmp.c: stricmp", "src/xml-parser/ConstantFactory.cc: factoryCheck, factoryAllocate", "src/xml-parser/ArrayLiteralFactory.cc", "src/xml-parser/ArrayVariableFactory.cc: check, allocate (MaxSize)", "src/xml-parser/parseNode.cc: checkPriority", "src/value/NodeConstants.cc: parseNodeState, parseNodeOutcome, parseFailureType", "src/value/CommandHandle.cc: parseCommandHandleValue"]}
{"id": "C64", "title": "Requests reach the handler in force, and its errors reach the plan", "statement": "Each command, abort, lookup, threshold and planner update request is given, once, to the handler registered last for its name, else to the last default handler, else to the built-in one (which acknowledges success); nobody else is called. An interface error raised by a handler while executing, aborting or looking up becomes an interface error of the command, a refused abort or an unknown state, and does not stop the executive. Adapters are initialised and started in order up to the first failure, which is reported.", "quantifier": "all histories of registrations, all requests, all behaviours of user code, all lists of adapters and configuration elements", "why_tests_cant": "the registration history and the user's code are unbounded", "anchors": ["src/app-framework/AdapterConfiguration.cc: registerCommandHandler, registerLookupHandler, executeCommand, invokeAbort, lookupNow, setThresholds, executeUpdate, constructInterfaces, initialize, start, stop", "src/app-framework/CommandHandler.cc", "src/app-framework/LookupHandler.cc", "src/app-framework/InterfaceManager.cc: handleCommandAck", "src/app-framework/InterfaceSchema.cc: parseCommaSeparatedArgs"]}
{"id": "C65", "title": "Listeners are told everything their filter passes, in order", "statement": "An execution listener present from the start is told every node transition its filter passes, every assignment, plan and library, each exactly once and in the order they happened (transitions and assignments each among themselves), those of a step when the step completes. The node state filter passes exactly the transitions from or to a listed state, or all but those between two ignored states.", "quantifier": "all histories of executive events, any number of listeners, all filter texts", "why_tests_cant": "histories and listener sets are unbounded", "anchors": ["src/app-framework/ExecListenerHub.cc: notifyOfTransitions, notifyOfAssignment, stepComplete", "src/app-framework/ExecListener.cc", "src/app-framework/ListenerFilters.cc: NodeStateFilter"]}
{"id": "C66", "title": "The stand-alone simulator sends every scripted message once, at its time, in order", "statement": "Every telemetry entry of the scripts and every response to a command is sent exactly once or still pending, never before its scheduled time, and in the order of scheduled times; the k-th command of a name gets the response the script gives for k (else the default), addressed to its sender and not before its delay; LookupNow returns the value last sent; and while the simulator waits, a timer or a pending signal guarantees that the next message will go out.", "quantifier": "all scripts, all sequences of commands and lookups, all clock behaviours, all interleavings of the two threads (for the timing claims: interleavings in which the threads take turns)", "why_tests_cant": "Wake-ups depend on clock readings taken between any two statements and on the interleaving of the IPC thread with the main thread; tests see a handful of timings.", "anchors": ["src/apps/StandAloneSimulator/Simulator.cc:handleWakeUp", "src/apps/StandAloneSimulator/Simulator.cc:scheduleNextResponse", "src/apps/StandAloneSimulator/Agenda.cc:scheduleResponse", "src/apps/StandAloneSimulator/TimingService.cc:setTimer", "src/apps/StandAloneSimulator/CommandResponseManager.cc:getResponses"]}
{"id": "C67", "title": "Messages between executives arrive whole, once, in order and as sent", "statement": "Executives that exchange messages over IPC see each other's traffic faithfully: a listener of an executive receives, from every other executive, exactly the broadcast messages and the messages addressed to it, each exactly once and only when all of its parts have arrived, in the order they were sent, with the serial number the sender was given, the names and the argument values sent - whatever the interleaving of the parts of different senders; if a sender stops in the middle, everything it had sent completely is still delivered and nothing is made up; a call that reports failure has not been delivered to anyone. This is for values that have a wire form, strings without NUL, fewer than 65536 arguments, fewer than 2^32-1 calls per sender, one sending thread per executive and no unsubscribing; each of these limits is shown to be needed.", "quantifier": "every number of executives, every history of calls of each, every value, every interleaving of message parts that keeps each sender's order, every point at which a sender stops, every pattern of publish failures", "why_tests_cant": "The interleavings of message parts of several senders, and the points where a sender can stop, are unbounded; a test sends a handful of messages between two executives and cannot see that a part is dropped, mis-filed or handed over early in another order.", "anchors": ["src/interfaces/IpcUtils/IpcFacade.cc: IpcFacade::publishCommand, publishMessage, publishReturnValues, publishUpdate, publishTelemetry, publishLookupNow, sendParameters, definePlexilIPCMessageTypes, MessageReceiver, cacheMessageLeader, cacheMessageTrailer, deliverMessage, subscribe, unsubscribe", "src/interfaces/IpcUtils/ipc-data-formats.h"]}
{"id": "C68", "title": "Executives command, answer and look each other up over IPC", "statement": "An executive that uses the IPC adapter executes a command of another executive by publishing it, is told it was sent, and gets as the command's value whatever the other returns for it, whenever that comes; a value never reaches another command and values for unknown requests are ignored. At the receiver the i-th ReceiveCommand of a name returns a label for the i-th command received under it (with duplicates allowed; else the newest), labels tell the serial number and the sender of every 32-bit serial number, and GetParameter on a label returns the argument asked for to the first who asks. A lookup of one of the executive's own external states gives the last update or the declared default; requests of others are answered with it, to the requester alone, or not at all. A lookup of a foreign state waits, undisturbed by other messages, for the first message that answers it and returns its value, and leaves nothing behind for the next lookup. The failures of these promises that the code does have are stated and proved.", "quantifier": "all histories of steps of the exec's thread (commands, lookups, updates) and the IPC thread (messages), all names, values, serial numbers, declared lookups and publish failures", "why_tests_cant": "Two threads meet at one semaphore, one mutex and four tables; tests run a few exchanges in one order, on small serial numbers, and never with two responders, early answers or unparsable labels.", "anchors": ["src/interfaces/IpcAdapter/IpcAdapter.cc: executeDefaultCommand, executeSendReturnValueCommand, executeReceiveCommandCommand, executeGetParameterCommand, executeUpdateLookupCommand, lookupNow, handleCommandSequence, handleReturnValuesSequence, handleTelemetryValuesSequence, handleLookupNowMessages, handlePlanFileMessage", "src/interfaces/IpcAdapter/MessageQueueMap.cc"]}
{"id": "C69", "title": "Declared command and lookup signatures are enforced when a plan is loaded", "statement": "Well written global declarations with different names are read exactly as they say; and whatever the XML, exactly the well formed ones without two declarations of one kind with the same name are accepted. A plan is accepted if and only if its own nodes and those of every library it calls, directly or through other libraries, are in order by the declarations of the document they are written in, all libraries are there and calls are not nested too deep. In an accepted plan every command and every lookup whose name is written out and declared has the declared number of arguments (or more, if AnyParameters), arguments that fit the declared types, a result variable that fits the declared type, and a lookup has the declared type. Declarations of the caller never affect a library nor the other way round; no load, accepted or refused, leaves a symbol table behind. The gaps the code does have (no Arguments element, library declarations without effect, misplaced MaxSize, trailing elements, repeated bounds) are stated and proved.", "quantifier": "all declarations, all plans and library graphs, all expressions nested to any depth, all orders of loads", "why_tests_cant": "Acceptance is decided in three passes over a tree of unbounded size that switch symbol tables at each library call; tests load some dozen plans.", "anchors": ["src/xml-parser/parseGlobalDeclarations.cc", "src/xml-parser/SymbolTable.cc", "src/xml-parser/parsePlan.cc", "src/xml-parser/planLibrary.cc", "src/xml-parser/parseLibraryCall.cc", "src/xml-parser/commandXmlParser.cc: checkCommandBody, finalizeCommand, checkResource", "src/xml-parser/LookupFactory.cc"]}
{"id": "C70", "title": "Starting and stopping plans from plans", "statement": "The StartPlan command either fails and has no other effect, or adds exactly one plan, returns its name and succeeds, in this order; the plan is a call of the library named, under a name of its own, with the values given, each under its name and unchanged, and it leaves when ExitPlan is given the name returned. ExitPlan succeeds just if exactly one root plan has the name given. Names given to different plans differ.", "quantifier": "all argument lists, all libraries, all histories of commands", "why_tests_cant": "the arguments (texts, numbers, their number) and the histories of commands are unbounded", "anchors": ["src/app-framework/Launcher.cc: executeStartPlanCommand, makeWrapperPlanXml, valueToExprXml, executeExitPlanCommand, findNode", "src/xml-parser/parseLibraryCall.cc: checkAlias, checkLibraryCall, finalizeAliases", "src/xml-parser/parser-utils.cc: typeNameAsValue", "src/xml-parser/ArrayLiteralFactory.cc: allocate"]}
{"id": "C71", "title": "Plans can watch other plans", "statement": "At any time PlanState(id), PlanOutcome(id) and PlanFailureType(id) are the state, the outcome and the failure type of the root plan called id as last reported; the executive is woken once for every report that concerns a root, after the values have been posted, and for no other.", "quantifier": "all histories of reports, all plans", "why_tests_cant": "the sequence of transitions is unbounded and depends on the plans and the environment", "anchors": ["src/app-framework/Launcher.cc: LauncherListener::implementNotifyNodeTransitions"]}
{"id": "C72", "title": "A scripted environment does what its script says, and answers the right requester", "statement": "Running a TestExec script: the states of InitialState and the elements of the script take effect in the order written, the executive makes one step after the initial state and one after each element (one for all of a Simultaneous element), and goes on stepping while it needs to. A lookup is answered with the value the script gave that state (same name, same parameters) last; before that the time is 0 and any other state unknown. A command result goes to the latest command of that name and arguments that awaits a value, and at most once; an acknowledgement to the latest such command; an abort acknowledgement to the latest one to be aborted that was not answered; an update acknowledgement to the first outstanding update of that node. The script stops early only at an element that nothing waits for or that is malformed, and everything before it has been done.", "quantifier": "every script, every initial state, every executive (any function from what happened to the calls it makes), every history", "why_tests_cant": "scripts and executives are unbounded; the answer to one element depends on the whole history of both", "anchors": ["src/apps/TestExec/TestExternalInterface.cc: run, handleInitialState, handleState, handleCommand, handleCommandAck, handleCommandAbort, handleUpdateAck, handleSendPlan, handleSimultaneous, lookupNow, executeCommand, invokeAbort, executeUpdate", "src/value/State.cc: operator<"]}
{"id": "C73", "title": "Values in a script are those their text denotes", "statement": "A value in a TestExec script of type int, real, bool or string (or an array of these) is the one its text denotes: the decimal Integer, the double nearest to the decimal number, true/false in any case or a number that is 0 or not, the text itself; Plexil_Unknown in any case is unknown. An array has one element per Value, in order. A text that denotes no value of the type is refused.", "quantifier": "every text, every type attribute, every list of values", "why_tests_cant": "texts and lists are unbounded; rounding and overflow happen at values no test hits", "anchors": ["src/apps/TestExec/TestExternalInterface.cc: parseOneValue, parseParam, parseResult, parseStateValue", "src/value/Value.cc: Value(std::vector<Value> const &)"]}
{"id": "C74", "title": "Arbitration with real amounts is exact arbitration", "statement": "Resource amounts are doubles. The resource arbiter grants and refuses commands, and knows what is in use, as it would with exact numbers: what it records for a resource is the sum of what the commands in progress took, never more than the maximum declared; when every command has given back what it took nothing is in use and the next command that asks for no more than there is gets it. Whatever the amounts, each command of a batch is granted or refused, once, and a command that asks for nothing is granted.", "quantifier": "all resource hierarchies, all batches of commands, all amounts (multiples of a unit, arbitrary doubles, values that are not numbers), all histories of batches and releases", "why_tests_cant": "rounding depends on the whole history of what was added and subtracted; tests use amounts like 1, 2 and 0.5, for which doubles are exact", "anchors": ["src/intfc/ResourceArbiterInterface.cc: ResourceArbiterImpl::arbitrateCommands, optimalResourceArbitration, releaseResourcesForCommand, maxConsumableResourceValue, determineAllChildResources"]}
{"id": "C75", "title": "A resource hierarchy file means what it says", "statement": "A resource file has one resource per line: its name, how much there is of it, and pairs of a weight and the name of a resource it uses; blank lines and lines whose first word begins with % mean nothing. A file of such lines with no resource given twice is read as exactly these entries, in order, every number as the double nearest to it, and the arbiter then finds each resource under its name and no other. A file that gives a resource twice, lacks an amount, has something else than a number where a number belongs, or a weight without a name, is refused, and a refused file changes nothing. Whatever is accepted has one entry for each line that is not blank or comment, named by its first word, all names different.", "quantifier": "all texts: any number of lines, words, blanks and numbers in decimal or hexadecimal, any earlier hierarchy, files that cannot be opened or read", "why_tests_cant": "the reader works by offsets and remaining lengths into each line on top of strtod, whose behaviour depends on what follows the number; tests read one well-formed file", "anchors": ["src/intfc/ResourceArbiterInterface.cc: ResourceArbiterImpl::readResourceHierarchyFile, readResourceHierarchy"]}
{"id": "C76", "title": "Finalizers run once each, last registered first", "statement": "plexilRunFinalizers calls every function registered with plexilAddFinalizer since the last run, each as often as it was registered, the last one registered first, however many there are; after a run nothing is registered. A function registered while the finalizers run is called too.", "quantifier": "all sequences of registrations and runs of any length, including registrations made by finalizers themselves", "why_tests_cant": "the list is kept in buckets of seven, so that what matters is how many functions there are and when a bucket is opened or left; no test registers more than a few", "anchors": ["src/utils/lifecycle-utils.c: plexilAddFinalizer, plexilRunFinalizers, plexil_opstack_push, plexil_opstack_run"]}
{"id": "C77", "title": "A debug message is enabled iff a pattern asked for occurs in its marker", "statement": "A debug message is enabled exactly when one of the patterns asked for, in a configuration file or through enableMatchingDebugMessages, occurs in its marker; it makes no difference whether the pattern or the message came first. A line of a configuration file asks for what stands between leading white space and the first # or /, without white space at its end and without a colon in front; blank and comment lines ask for nothing.", "quantifier": "all sequences of message constructions, configuration texts and calls; all markers, lines and patterns", "why_tests_cant": "messages are static objects constructed in an order the linker decides, before or after patterns are read; tests see one order", "anchors": ["src/utils/DebugMessage.cc: DebugMessage::DebugMessage, enableMatchingDebugMessages, readDebugConfigStream, matchesPatterns"]}
{"id": "C78", "title": "A viewer can tell from what it is sent what happened", "statement": "What a Luv viewer is sent - one message ended by the end-of-message character for each node transition and assignment, two for each plan and library - determines the history: two different histories of transitions (new state, outcome, failure type, conditions and their values, path from the root), assignments, plans and libraries are never sent as the same text. When the viewer is to block the Exec, a message is sent only after each one before it was acknowledged, and all are sent if enough acknowledgements come.", "quantifier": "all histories of notifications, all node names, values and plans; all ways the viewer's answers are cut into reads", "why_tests_cant": "two histories that look alike need not be near each other, and acknowledgements may arrive cut up or together as the network pleases; tests compare no messages at all", "anchors": ["src/interfaces/LuvListener/LuvFormat.cc: formatTransition, formatConditions, formatNodePath, formatAssignment, formatPlanInfo, formatPlan, formatLibrary", "src/interfaces/LuvListener/LuvListener.cc: sendMessage, waitForAck, sendPlanInfo"]}
{"id": "C79", "title": "A simulator script means what it says", "statement": "A script for the stand-alone simulator, with declarations or of the old kind, is read as exactly what it says: each telemetry entry is scheduled, and each response is given to the manager of its command, in the order of the file, under its name, with the index and number of responses written, with the double nearest to the delay written, and with the value that the next line is as a literal of the type declared (Real in an old script). Remarks - lines whose first character is not a letter or digit - and blank lines may stand anywhere, and mean nothing.", "quantifier": "all scripts: any number of lines, declarations, entries, remarks, blanks, numbers and values; any symbols declared by scripts read before", "why_tests_cant": "the reader works word by word on streams whose failure and end-of-file states depend on how a line and the file end, and the meaning of a line depends on all lines before it; the repository has four sample scripts", "anchors": ["src/apps/StandAloneSimulator/SimulatorScriptReader.cc: readScript, parseDeclaration, parseCommandDeclaration", "src/apps/StandAloneSimulator/LineInStream.cc: getLine", "src/apps/StandAloneSimulator/ResponseFactory.cc: parseTelemetryHeader, parseCommandResponseHeader, parseReturnValue", "src/apps/StandAloneSimulator/PlexilSimResponseFactory.cc: parseTelemetryReturn, parseCommandReturn"]}
{"id": "C80", "title": "Plan statistics are right", "statement": "When the plan analyser is run on a plan, every number it reports is the number of nodes of the plan, libraries included, of which the line speaks: the nodes in all, those of each type, with each number of variables and of children, with each condition, with each number of conditions, the list nodes with each number of conditions, the calls of each library and the number of libraries called; the call depth is the longest chain of library calls one inside the other. Every such number that is not zero is reported, and no line comes twice.", "quantifier": "every plan tree, of any depth and width, with any combination of conditions and variables", "why_tests_cant": "the numbers are gathered by a recursive walk into growing vectors and a map; which index is met first depends on the plan", "anchors": ["src/xml-parser/analyzePlan.cc: getNodeStatistics, incrementNodeChildCount, reportStatistics"]}
{"id": "C81", "title": "What a Node element may contain", "statement": "The check of a Node element accepts exactly the well-formed ones: every child is one of the eighteen elements a node may have; all but the comments and annotations come at most once and pass the check of their content; a priority is given to assignments only; there is a node id; there is a body if and only if the node is not empty; and no declared variable conflicts with the interface. In a node that was accepted each condition element gives the condition of its name, with its expression, and no other condition is set; a condition that is not Boolean is an error. The name of a condition and its index determine each other, and other names have no index.", "quantifier": "every sequence of children with any names, every type of node", "why_tests_cant": "the check is a hand-written switch on first letters and lengths with a variable for each element; any string may come as a name", "anchors": ["src/xml-parser/parseNode.cc: checkNode, createConditions", "src/exec/NodeImpl.cc: getConditionIndex, addUserCondition"]}
