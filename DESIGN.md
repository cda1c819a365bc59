# Formal model of the PLEXIL executive in Coq 8.16.1

## Approach

`/verif/rocq/theories` holds, per area of the code,

* `XModel.v`  - total, computable Gallina functions, one per C++ function, each with a comment citing file and lines and the simplifications made;
* `XSpec.v` (where the statement needs vocabulary) - a short specification that does not mention the model's helpers;
* `XProofs*.v` - lemmas;
* `XProps.v`  - the property theorems, named `Cnn_...`, non-vacuity `Example`s, and `Print Assumptions` of every theorem.

A property the code violates is stated as a theorem ending in `_refuted` with a concrete reachable
witness, and the strongest true variant found is proved beside it (suffix `_partial` when a hypothesis
excludes cases the English includes). "partial" in MANIFEST.json nearly always means exactly this: the
English property is false of the code, its failure is proved, and the rest is proved.

Models are checked against wrong programs: `seeded/LOG.jsonl` lists the edits made to the models and the theorems that failed.

## Properties

Each row: what is modelled, how it is proved, the theorem file. Full notes are in MANIFEST.json.

| id | property | status | model | proof | theorems in |
|----|----|----|----|----|----|
| C01 | Only legal node state transitions | proved | decision functions getDestState*, all node types; conditions arbitrary optional three-valued values | case analysis of the full decision tables | NodeProps |
| C02 | Start, skip, exit, end, pre and post decide as documented | proved | same | each decision function equals an independent specification (NodeSpec) | NodeProps |
| C03 | Outcome and failure type are coherent in every reachable state | proved | per-node part of NodeImpl::transition with outcome/failure | invariant over arbitrary histories of transitions | NodeProps |
| C04 | Every node sits in at most one executive queue and its queue status says which | proved | executive: candidate/pending/state-change/finished queues and the quiescence loop (ExecModel) | inductive invariant over all reachable states | ExecProps, ExecProps2 |
| C05 | Mutual exclusion of mutex users | proved | mutexes in ExecModel | invariant | ExecProps |
| C06 | A node that has finished holds no mutex | partial | release on leaving EXECUTING/FAILING/FINISHING/ITERATION_ENDED | invariant and witness plan | ExecProps |
| C07 | Resource acquisition is all-or-nothing | proved | tryAcquire over mutexes and the assigned variable | induction on the list of resources | ExecProps |
| C08 | No lost wake-ups for nodes waiting on resources | partial | waiting lists and resource checks in ExecModel | invariant (ExecLimbo) and witnesses | ExecProps2 |
| C09 | Children only run while their parent is running | partial | whole-tree model with arbitrary conditions | invariant for plain lists; witness plan | ExecProps2 |
| C10 | A list node ends an iteration only when every child is waiting or finished | proved | list end condition, AllWaitingOrFinished | invariant | ExecProps |
| C11 | Finished root nodes are retired exactly once | proved | finished-roots queue, deleteFinishedPlans | invariant over histories | ExecProps |
| C12 | Pending nodes are served by priority, then first come first served | proved | pending queue as PriorityQueue | refinement of the heap-level queue, stability of insertion | QueueProps, QueueExec |
| C13 | A macro step always terminates | partial | PlexilExec::step loop with fuel | termination measure when nothing repeats; infinite run for repeating nodes | ExecProps2, ExecTerm |
| C14 | Aborted assignments restore the variable | partial | Assignment object with scalar, array and element destinations | state machine over all interleavings | VarProps |
| C15 | Command acknowledgements are only honoured while the command is active | proved | CommandImpl and CommandHandleVariable | state machine over all histories | CommandProps |
| C16 | Resource arbiter partitions, respects priority and never over-allocates | proved | ResourceArbiterInterface, exact amounts | invariants over batches and histories | ArbiterProps |
| C17 | Serialized values and states decode to themselves | partial | byte-level serialize/deserialize of values, arrays, states | structural induction | CodecProps |
| C18 | Serialized size is exact | proved | serialSize | structural induction | CodecProps |
| C19 | Value equality is an equivalence and agrees across numeric types | proved | Value::equals, Array == | case analysis, induction | OrderProps |
| C20 | Value, array and state ordering is a strict weak order | partial | Value::lessThan, array and State < | idem | OrderProps |
| C21 | Three-valued Boolean operators implement Kleene logic | partial | Boolean operators, 1, 2, n operands | equality with Kleene logic as min/max | OpProps |
| C22 | Integer arithmetic is exact or reported | partial | Integer operators with undefined behaviour as an outcome | induction on operands | OpProps |
| C23 | Comparisons are unknown exactly when an operand is unknown, and consistent | partial | Comparisons.cc and the operator table | case analysis | CmpProps |
| C24 | The intrusive queue behaves as a FIFO list | proved | LinkedQueue at pointer level | refinement to lists | QueueProps |
| C25 | Reservable resources have one holder and wake their waiters | proved | Reservable | all histories | ReservableProps |
| C26 | State cache delivers every change to every registered lookup | proved | StateCache, StateCacheEntry, CachedValue, Lookup | invariants over all histories | CacheProps |
| C27 | LookupOnChange tolerance | partial | thresholds with IEEE arithmetic | invariants; rounding error analysis (RealErr) | CacheTolProps |
| C28 | The input queue is a lossless FIFO | proved | SimpleInputQueue, SerializedInputQueue, QueueEntry recycling | refinement; statement-level interleavings | InputProps |
| C29 | External events take effect in order | proved | InterfaceManager posting, processQueue, ExecApplication worker | invariants over all interleavings | AppProps |
| C30 | Expression activation is balanced | partial | Notifier, Propagator, activation of every expression class | invariants over all graphs and call histories | NotifyProps |
| C31 | Variable semantics | partial | UserVariable, ArrayVariable | all histories | VarProps |
| C32 | Array element access is bounds-checked and independent | partial | ArrayImpl | list lemmas | ArrayProps |
| C33 | Node timepoints record the right transition | proved | NodeTimepointValue and the trace part of NodeImpl | all histories, linked to executions by C37 | TimeProps |
| C34 | Real-to-integer conversions are exact or unknown | partial | conversions on exact values of doubles | case analysis | OpProps |
| C35 | Condition activations are balanced over a node's life | partial | condition activation in transitions | counting invariant | NodeProps |
| C36 | The executive's internal error checks do not fire | proved | assertions of the executive as error outcomes | invariant | ExecProps2 |
| C37 | The reported transition history is faithful | proved | transition log published to listeners | invariant over executions | ExecProps2 |
| C38 | Commands, updates and assignments are issued exactly once per execution | proved | calls to the interface made on entering EXECUTING etc. | counting over executions | ExecProps2 |
| C39 | Synchronous semantics of a quiescence pass | proved | one pass of the quiescence loop | equality with the synchronous batch (ExecBatch) | ExecProps2 |
| C40 | All-plans-finished is reported correctly | proved | allPlansFinished | invariant | ExecProps2 |
| C41 | Learning more never retracts a known Boolean result | partial | nested Boolean expressions | structural induction | OpProps |
| C42 | No notification is lost | proved | semaphore and worker | invariant over all interleavings | AppProps |
| C43 | notifyAndWaitForCompletion waits for completion | partial | mark queue | idem | AppProps |
| C44 | Opportunistic execution | partial | opportunistic runExec | witness from every reachable state | AppProps |
| C45 | stop() ends the worker | proved | stop | invariant and progress | AppProps |
| C46 | waitForPlanFinished | partial | waitForPlanFinished | witness history | AppProps |
| C47 | A plan sees exactly the messages it was given | partial | message calls over the state cache; MessageAdapter | all histories (uses C26) | MsgProps |
| C48 | Real arithmetic is correctly rounded and unknown exactly when it has no value | proved | Real operators on Flocq binary64 | Flocq's correctness theorems; induction on operands | FloatProps |
| C49 | A requested wake-up is not lost | proved | statement-level machine of PosixTimebase::setTimer and the TimeAdapter callback, any number of callback threads | invariant over histories; decreasing measure for settling | AlarmProps |
| C50 | Time arithmetic is exact | proved | timespec/timeval arithmetic over Z, conversions on Flocq binary64 | case analysis; rounding-error bounds | AlarmProps |
| C51 | Tick mode and restart | partial | 32-bit product of the interval; started flag | modular arithmetic | AlarmProps |
| C52 | Lexical scoping of variables | partial | a node with its ancestors; variable maps with parent pointers as built by the loader | induction on the ancestors against a recursive specification of scoping | ScopeModel, ScopeSpec, ScopeProofs, ScopeProps |
| C53 | In and InOut parameters | partial | linkInVar, linkInOutVar, assignment targets | facts about one node as built, plus C52 | ScopeProps |
| C54 | Which mutex a name means | partial | isMutexInScope on the document, findMutex on the expanded plan | induction on the ancestors | ScopeProps |
| C55 | Which node a reference means | partial | checkNodeReference on the document, parseNodeReference on the expanded plan | induction on the ancestors against an inductive relation | ScopeProps |
| C56 | Sorted-vector map and set | proved | sorted vector and bisection | simulation of a partial function, over any strict total order | MapModel, MapSpec, MapProps |
| C57 | Expansion of library calls | partial | expansion with a recursion bound | well-founded induction on a rank of the libraries | ScopeProps |
| C58 | Which expressions load | partial | syntax of expressions, both passes of the loader (check, allocate), operand checks of every operator | induction on expressions against a declarative typing relation; counterexamples for the refuted parts | TypeProps |
| C59 | Well-typed expressions evaluate | partial | run-time objects with the virtual read methods of each class, over values and environments | type soundness by induction on expressions: each object good for its type | TypeProps |
| C60 | A UDP message carries exactly its arguments, and neither end leaves its buffer | partial | definitions as parameter lists, both buffers as byte lists, binary32 and binary64 from Flocq | the image of each value computed once; writing produces it at its offset, reading it back gives the value; by induction on parameters | UdpProps |
| C61 | Each received message goes to exactly one waiting command, in order, and parameters go with their message | partial | the queue map with both queues per name, adapter commands as operations on it, names as character lists; two threads statement by statement | invariant: queues are the unmatched rests of requests and messages; names injective | UdpQueueProps |
| C62 | The UDP event loop delivers every open port's datagrams in order and keeps running | partial | listener and descriptor maps, poll vector, sockets with queues, event thread in steps | inductive invariant over histories; session lemma per port; drain lemma for progress | UdpLoopProps |
| C63 | Literals and names mean what they say | partial | strtol, strtod and the parsers on character lists; rounding by Flocq | parser = grammar, both directions, by induction on the text; correct rounding of num/den from Flocq's Bdiv_correct_aux | LitProps, PrintProps |
| C64 | Requests reach the handler in force, and its errors reach the plan | proved | handler maps, dispatcher with user code as a parameter, adapter list, configuration elements | the map is the last registration (induction on the history from the right); case analysis per request | DispProps |
| C65 | Listeners are told everything their filter passes, in order | proved | hub with pending records, listeners with filters | induction over the history of hub calls, per listener | DispProps |
| C66 | The stand-alone simulator sends every scripted message once, at its time, in order | partial | two threads, statement by statement, over agenda, interval timer, SIGALRM flag and clock | multiset invariant over all interleavings; for histories in turn, one-thread machine with a per-statement assertion (times, coverage by timer or signal), termination measure for handleWakeUp | SimProps |
| C67 | Messages between executives arrive whole, once, in order and as sent | proved | IpcFacade: publish functions as lists of parts under a pattern of publish failures, receiver's table of incomplete messages, listeners | invariant of the table over every event list (each key holds a proper prefix of one message); per-sender projection of the hand-overs; prefix monotonicity for interrupted senders | IpcProps |
| C68 | Executives command, answer and look each other up over IPC | proved | IpcAdapter: queues, pending commands, external lookups, one pending lookup; steps of the exec's and the IPC thread, m_lookupMutex as steps not possible while it is held | the queue part of every run is a run of the message queues of C61; invariant of serial numbers (pending ones distinct and below the next, none that of a lookup); silent messages leave the lookup's fields alone | IpcAdProps |
| C69 | Declared command and lookup signatures are enforced when a plan is loaded | proved | global declarations as XML read in two passes, symbol tables and their stack, the library, the three passes over a plan; expressions as trees with typing functions | declarations: both passes computed on well written ones; plans: the passes decide an inductive typing, by induction over expressions, nodes and the depth of calls; the stack of tables is restored by every pass | DeclProps |
| C70 | Starting and stopping plans from plans | partial | the plan StartPlan makes as XML, and a loader for library calls with literal aliases and an exit condition; handlers as functions to lists of posts | texts of values are read back (C63); names split at their last underscore; serial numbers by induction over the commands | LaunchProps |
| C71 | Plans can watch other plans | partial | the listener as a function from reports to posts | last post of a state = last transition with the property, by induction over the history | LaunchProps |
| C72 | A scripted environment does what its script says, and answers the right requester | partial | the environment's five maps (std::map by State::operator<), the script interpreter, and the history of everything said between it and the executive; the executive is any function of the history | invariant: each map holds what a backwards search of the history finds; each event of a history is justified by what came before; the effects of the history are those the script means | TestProps |
| C73 | Values in a script are those their text denotes | partial | istringstream extraction of integers, bools and doubles as in libstdc++, on the model of strtod of C63; the array constructor of Value; the node walks of the parser | induction on texts and lists; the characters collected of a decimal number are the number's own, so that C63's theorem about strtod applies | TestLitProps |
| C74 | Arbitration with real amounts is exact arbitration | partial | ResourceArbiterInterface with doubles (Flocq binary64), function by function | simulation: with all amounts multiples of a unit 2^e below 2^52 units each float step is the integer step of C16's model; an invariant on a stuck resource for the refutations | ArbFloatProps |
| C75 | A resource hierarchy file means what it says | partial | readResourceHierarchyFile on texts, getline, strspn/strcspn, strtod of C63's model | strtod looks no further than the word it is at (each of its pieces commutes with appending text that begins with a blank); induction on lines and on pairs | ResFileProps |
| C76 | Finalizers run once each, last registered first | partial | plexil_opstack with its buckets; finalizers by what they register | induction on programs with the contents of the buckets as the abstraction | FinalProps |
| C77 | A debug message is enabled iff a pattern asked for occurs in its marker | proved | DebugMessage and the configuration reader on texts | invariant over histories: the patterns known are those asked for, enabled iff one occurs | DebugProps |
| C78 | A viewer can tell from what it is sent what happened | partial | LuvFormat and LuvListener: messages as texts, the socket as chunks read | each element can be read off the front of the stream, by induction over conditions, path and history; induction over chunks | LuvProps |
| C79 | A simulator script means what it says | partial | the script reader on lists of lines: getLine, stream extraction (libstdc++), the chain of cases, values through the literal parsers of C63 | induction over what a script says; each extraction is shown to take exactly one word | ScriptProps |
| C80 | Plan statistics are right | partial | the walk over a tree of nodes, the counters (vectors whose bounds are checked), the report as the sequence of its numbers | an invariant relating the counters to the nodes seen so far, by induction over the tree | AnalyzeProps |
| C81 | What a Node element may contain | partial | checkNode's loop on the names of the children, with the results of the content checks given; getConditionIndex; createConditions | each step compared with a list of names; induction over the children | ElemProps |

## What is modelled

| C++ source | Coq | remarks |
|----|----|----|
| src/exec/NodeImpl.cc (getDestState*, transition, conditions, timepoints), ListNode.cc, CommandNode.cc, AssignmentNode.cc, UpdateNode.cc, LibraryCallNode.cc | NodeModel, ExecModel, TimeModel | node pointers are numbers, the shape of the plan is fixed; condition values are arbitrary functions of the world and all nodes; which nodes an expression change notifies is over-approximated by arbitrary lists |
| src/exec/PlexilExec.cc | ExecModel | full quiescence loop, queues as lists (related to pointers by QueueExec) |
| src/utils/LinkedQueue.hh | QueueModel | pointer level |
| src/expr/Reservable.cc, src/exec/Mutex.cc | ReservableModel, ExecModel | |
| src/expr/UserVariable.cc, ArrayVariable.cc, ArrayReference.cc, SimpleBooleanVariable.cc, src/exec/Assignment.cc | VarModel | element type arbitrary |
| src/value/Value.cc, ArrayImpl.cc, Array.cc, src/intfc/State.cc | ValueModel, VarModel | equality, order, serialization; printing and XML are not modelled |
| src/expr/BooleanOperators.cc, ArithmeticOperators.cc, Comparisons.cc, ConversionOperators.cc, Function.cc (dispatch on argument count) | OpModel, FloatModel | doubles: Flocq binary64; C library fmod and sqrt taken to be IEEE exact/correctly rounded; round/floor/ceil/trunc on exact values |
| src/expr/Notifier.cc, Propagator.cc, activation methods of all expression classes, src/intfc/ExprVec.cc | NotifyModel | |
| src/intfc/StateCache.cc, StateCacheEntry.cc, CachedValueImpl.cc, Lookup.cc | CacheModel, RealModel, MsgModel | |
| src/intfc/CommandImpl.cc, CommandHandleVariable.cc | CommandModel | |
| src/intfc/ResourceArbiterInterface.cc | ArbiterModel (amounts exact), ArbFloatModel (amounts doubles), ResFileModel (hierarchy files) | std::map as a list of entries with different names |
| src/app-framework/SimpleInputQueue.cc, SerializedInputQueue.cc, src/intfc/QueueEntry.cc | InputModel | |
| src/app-framework/InterfaceManager.cc (posting, processQueue), ExecApplication.cc | AppModel | all interleavings, sequentially consistent memory |
| src/app-framework/MessageAdapter.cc | MsgModel | |
| src/interfaces/UdpAdapter/MessageQueueMap.cc (= IpcAdapter's), UdpAdapter.cc (ReceiveCommand, GetParameter, handleUdpMessage's queueing) | UdpQueueModel | commands are numbers; exec interface calls are output |
| src/value/ValueType.cc (parseValue, parseValueType, printValue for Boolean, Integer and Real), NodeConstants.cc, CommandHandle.cc, src/utils/stricmp.c, src/xml-parser/ConstantFactory.cc, ArrayLiteralFactory.cc, ArrayVariableFactory.cc (MaxSize), parseNode.cc (priority) | LitModel, PrintModel (Reals) | strtol, strtoul, strtod as in the C standard ("C" locale, 64-bit long, correctly rounded); printf's %.15g as in the C standard, correctly rounded to even; an XML element's text is a character list |
| src/app-framework/AdapterConfiguration.cc, CommandHandler.cc, LookupHandler.cc, InterfaceManager.cc (handleCommandAck), InterfaceSchema.cc (parseCommaSeparatedArgs), ExecListenerHub.cc, ExecListener.cc, ListenerFilters.cc | DispModel | user code is a parameter; std::map is a function; XML elements are the data read from them |
| src/apps/StandAloneSimulator/Simulator.cc, Agenda.cc, TimingService.cc, CommandResponseManager.cc, IpcCommRelay.cc (LookupNow) | SimModel | timevals are microseconds (C50), values are tokens, the timer fires exactly at its expiry; signals other than SIGALRM, stop() and script syntax left out |
| src/interfaces/UdpAdapter/UdpEventLoop.cc | UdpLoopModel | requests and the event thread's answer are one step; socket, bind, pipe succeed |
| src/interfaces/UdpAdapter/UdpAdapter.cc (parseMessageDefinition, buildUdpBuffer, executeDefaultCommand, handleUdpMessage), udp-utils.cc, UdpEventLoop.cc (handleFDReady) | UdpModel | attributes instead of XML, no ports; a NaN keeps no payload |
| src/interfaces/IpcUtils/IpcFacade.cc, ipc-data-formats.h | IpcModel | IPC central is a network that keeps each sender's order; C strings end at NUL; mutexes and thread start-up are not modelled |
| src/interfaces/IpcAdapter/IpcAdapter.cc | IpcAdModel | commands are numbers; whether XML or files load is given with the message; a failed assertion ends the program; updateQueue is one step; start-up, shutdown and debug output left out |
| src/xml-parser/parseGlobalDeclarations.cc, SymbolTable.cc, parsePlan.cc, planLibrary.cc, parseLibraryCall.cc, commandXmlParser.cc, LookupFactory.cc | DeclModel | nodes are abstract syntax (expressions, command, children or library call); expressions other than literals and lookups are typing functions; a library's name is its file's; endless recursion is RDeep for every fuel |
| src/xml-parser/parseNode.cc (names, interface, mutexes, children), parseLibraryCall.cc, parseNodeReference.cc, planLibrary.cc (lookup only), createExpression.cc (createAssignable), ArrayReferenceFactory.cc (createMutableArrayReference); src/exec/NodeImpl.cc (findVariable, findMutex, allocateVariables), ListNode.cc, LibraryCallNode.cc, NodeVariableMap.cc; src/expr/Alias.cc | ScopeModel | names are numbers; expressions given as defaults and arguments are represented by their types; one In and one InOut element per Interface |
| src/xml-parser/Operations.cc, OperationFactory.cc, ArrayReferenceFactory.cc, LookupFactory.cc (check, allocate), createExpression.cc, parseAssignment.cc, src/expr operators (checkArgCount, checkArgTypes, valueType, the evaluation entry points), Function.cc, ArrayReference.cc, Lookup value reads | TypeModel | expressions are trees with leaf indices; node-reference comparisons, LookupOnChange tolerance and user-defined operators are left out; undefined behaviour is an outcome (Crash, EUB) |
| src/app-framework/Launcher.cc, src/xml-parser/parseLibraryCall.cc (aliases), parser-utils.cc (typeNameAsValue), ArrayLiteralFactory.cc (allocate) | LaunchModel | only library calls with literal aliases and a LookupNow exit condition are read; whether the library accepts the aliases is a parameter |
| src/apps/TestExec/TestExternalInterface.cc | TestModel, TestLitModel | the executive is a parameter; its calls happen in steps, except lookups; XML is a tree |
| src/utils/lifecycle-utils.c | FinalModel | malloc does not fail; finalizers do not run the finalizers |
| src/utils/DebugMessage.cc | DebugModel | streams do not fail; the output stream is left out |
| src/interfaces/LuvListener/LuvFormat.cc, LuvListener.cc (messages, acknowledgements) | LuvModel | values and plans are the texts they print as; a socket is what is written and the chunks read |
| src/apps/StandAloneSimulator/SimulatorScriptReader.cc, LineInStream.cc, ResponseFactory.cc, PlexilSimResponseFactory.cc | ScriptModel | characters 1..255; libstdc++ extraction in the C locale; delays stay doubles; what is scheduled is a list |
| src/xml-parser/analyzePlan.cc | AnalyzeModel | without RECORD_EXPRESSION_STATS; the plan as a tree with the accessors' results; headings of the report left out; size_t as natural numbers |
| src/xml-parser/parseNode.cc 463-737, 1238-1259; src/exec/NodeImpl.cc 72-144, 385-397 | ElemModel | a child is its name, the result of the check of its content and, for conditions, the expression; all errors alike |
| src/utils/SimpleMap.hh, SimpleSet.hh, map-utils.hh | MapModel | vectors are lists, iterators positions; std::lower_bound written out |
| src/utils/timespec-utils.cc, timeval-utils.cc, src/app-framework/PosixTimebase.cc, ItimerTimebase.cc, Timebase.cc (getTime), TimeAdapter.cc (deadline callback) | AlarmModel | each source statement between two shared accesses is atomic; OS timers as an optional expiration time; system calls succeed |

## Refuted claims

Each is a theorem with a concrete witness about the modelled code, i.e. a behaviour of the C++ that contradicts the property as a user would state it.

* **C04** (Every node sits in at most one executive queue and its queue status says which): `C04_pending_status_refuted`. status PENDING does not imply membership of the pending queue (refuted variant)
* **C06** (A node that has finished holds no mutex): `C06_refuted`. false as stated: a node going straight from EXECUTING or FAILING to FINISHED keeps its mutexes; proved for all other ways of ending
* **C07** (Resource acquisition is all-or-nothing): `C07_duplicate_mutex_refuted`. a node naming a mutex twice can never acquire it
* **C08** (No lost wake-ups for nodes waiting on resources): `C08_lost_forever_refuted`, `C08_untried_refuted`. false as stated (two distinct defects refuted)
* **C09** (Children only run while their parent is running): `C09_refuted`. false as stated for lists with user end/exit/invariant conditions; proved when parent and its ancestors have none
* **C13** (A macro step always terminates): `C13_refuted`. false as stated for repeating nodes; proved (with a bound) when no node repeats, and only repetition can prolong a step
* **C14** (Aborted assignments restore the variable): `C14_abort_report_refuted`, `C14_element_index_changed_refuted`. scalar, array and array-element destinations, all values and interleavings of right-hand-side changes; the value reported to listeners after an abort can be wrong (refuted), and aborting array[i] := x after i changed restores the wrong element (refuted)
* **C15** (Command acknowledgements are only honoured while the command is active): `C15_unknown_name_refuted`, `C15_ack_known_refuted`, `C15_silent_reset_refuted`. the property itself for all histories of activations, messages and outside uses; beyond it: the request is a snapshot, release rule; three corner cases refuted (unknown name asserts later, isKnown after the end, unannounced reset at reactivation)
* **C16** (Resource arbiter partitions, respects priority and never over-allocates): `C16_cycle_refuted`, `C16_override_refuted`, `C16_negative_refuted`, `C16_leak_refuted`. all hierarchies, batches and histories, with resource amounts as exact numbers (double rounding not modelled); cyclic hierarchies, explicit override of an implied amount, renewing needs and release after a denied handle are refuted
* **C17** (Serialized values and states decode to themselves): `C17_array_size_refuted`, `C17_unknown_type_refuted`, `C17_long_name_refuted`, `C17_many_parameters_refuted`. false as stated: array sizes with a byte >= 0x80 are misread (signed char), unknowns lose their type, over-long names are written through a null pointer, parameter counts above 0xFFFFFF are truncated; proved for everything else
* **C19** (Value equality is an equivalence and agrees across numeric types): `C19_hidden_contents_refuted`. array equality also compares contents of unknown elements (refuted variant)
* **C20** (Value, array and state ordering is a strict weak order): `C20_nan_refuted`, `C20_equal_but_less_refuted`. proved for all values without NaN; with NaN it is false (refuted)
* **C21** (Three-valued Boolean operators implement Kleene logic): `C21_or_nary_refuted`, `C21_xor_nary_refuted`. false as stated for OR of three or more operands with some false, some unknown, none true (answers false), and for XOR of three or more operands (always unknown or uninitialised); proved for everything else
* **C22** (Integer arithmetic is exact or reported): `C22_overflow_refuted`, `C22_fits_but_undefined_refuted`. known results are exact and unknown only for the stated reasons, for all operations and operand counts; overflow is undefined behaviour in the code (refuted), including intermediate overflow and INT_MIN % -1 where the exact result fits
* **C23** (Comparisons are unknown exactly when an operand is unknown, and consistent): `C23_date_equality_refuted`. equality of Date and Duration operands always fails (refuted); proved for all other types
* **C24** (The intrusive queue behaves as a FIFO list): `C24_double_push_refuted`, `C24_insert_after_tail_refuted`. proved for all histories that only queue unqueued items; insert_after at the tail (used in tests only) and a second push of the tail item are shown to corrupt the queue
* **C26** (State cache delivers every change to every registered lookup): `C26_blank_notifies_refuted`, `C26_deleted_entry_refuted`, `C26_asks_though_fresh_refuted`. all histories of activations, deactivations, parameter changes, updates, cycle increments and deletions over any number of lookups and states; reactions of listeners to a notification are separate operations; three corner cases refuted (typed-unknown first update notifies without a change, deleted entry leaves a dangling pointer, an unchanged update does not count as fresh)
* **C27** (LookupOnChange tolerance): `C27_unknown_sticks_refuted`, `C27_tolerance_lost_refuted`, `C27_overflow_refuted`, `C27_nan_sticks_refuted`, `C27_real_tolerance_integer_state_refuted`, `C27_interface_stale_refuted`, `C27_interface_not_cleared_refuted`. all histories over any number of lookups and states. Integer: exact iff when the band does not overflow 32 bits. Real (IEEE double arithmetic modelled): exact for 'at least the tolerance away is reported'; 'within is not reported' needs a 2^-42 relative margin because of the code's epsilon. The property fails in the corner cases refuted (Integer unknown sticks, tolerance lost silently, overflow, NaN, Real tolerance on an Integer state)
* **C28** (The input queue is a lossless FIFO): `C28_flush_deadlock_refuted`. SimpleInputQueue for all call histories; SerializedInputQueue for all statement-level interleavings of any number of threads. flush() of the serialized queue deadlocks when the queue is not empty (refuted)
* **C29** (External events take effect in order): `C29_accept_refuted`. for every executive and every interleaving of any number of threads with the worker (background mode); the input queue is taken as the FIFO of C28. One kind of event never takes effect: an accepted message makes the worker fail, because its handle is dropped (refuted; C29_no_failure says nothing else does)
* **C30** (Expression activation is balanced): `C30_many_params_refuted`, `C30_once_refuted`. all expression graphs and call histories; the listener theorems assume lookups have at most four parameters, because a lookup with more re-adds itself instead of removing (refuted); a listener above two lookups sharing a parameter is told twice (refuted)
* **C31** (Variable semantics): `C31_element_unknown_refuted`, `C31_array_restore_refuted`, `C31_array_shrink_refuted`. scalar variables: all histories; array variables: all histories whose save/restore pairs match as the executive issues them, with three refuted corners
* **C32** (Array element access is bounds-checked and independent): `C32_moved_from_refuted`. all histories of element writes, resizes and reads; a moved-from array is the one exception (refuted)
* **C33** (Node timepoints record the right transition): `C33_end_after_start_refuted`, `C33_initial_inactive_refuted`, `C33_unmentioned_start_refuted`. TimeModel.v: NodeTimepointValue.cc and NodeImpl.cc logTransition/setState/ensureTimepoint/getStateStartTime. Proved for every history and, through C37, for every execution of every plan. Three stronger readings are refuted: end >= start, INACTIVE.START of a fresh node, start time of a state no expression mentions.
* **C34** (Real-to-integer conversions are exact or unknown): `C34_nan_refuted`. proved for every finite or infinite real; a NaN operand is cast to Integer, which is undefined (refuted)
* **C35** (Condition activations are balanced over a node's life): `C35_command_exit_activation_leak_refuted`. CommandNode activates its exit condition twice
* **C41** (Learning more never retracts a known Boolean result): `C41_or_retracts_refuted`. proved for expressions whose ORs and XORs have at most two operands; refuted for larger ORs
* **C42** (No notification is lost): `C42_initial_step_refuted`. for every executive and every interleaving; sequentially consistent memory. Before the first notification the executive may be left needing a step (refuted)
* **C43** (notifyAndWaitForCompletion waits for completion): `C43_lost_count_refuted`, `C43_before_step_refuted`, `C43_hang_refuted`. proved for all interleavings in which no two threads are inside markQueue together (return only after everything before was applied; the worker does not sleep while a mark is outstanding; the semaphore stays available). Without that assumption both halves fail (refuted), and the call may return before the executive has stepped (refuted). Termination is shown as absence of deadlock, not under a fairness assumption
* **C44** (Opportunistic execution): `C44_opportunistic_refuted`. the property is false: from every reachable state, notifyExec on an idle executive blocks its caller and the executive forever
* **C46** (waitForPlanFinished): `C46_stale_refuted`. the property is false: after the first plan, the semaphore is posted at every notification, so a later wait returns while a new plan is running
* **C47** (A plan sees exactly the messages it was given): `C47_release_unheld_refuted`, `C47_release_ignored_refuted`, `C47_release_leaves_refuted`, `C47_reassign_refuted`, `C47_adapter_handle_refuted`, `C47_adapter_acks_refuted`. the cache part is proved for all histories in which handles are not reused while held and are released only when no active lookup uses them; without that discipline it is false (four refuted corners, one a null dereference). The shipped adapter never generates a handle, so no accepted message becomes readable (refuted)
* **C48** (Real arithmetic is correctly rounded and unknown exactly when it has no value): `C48_overflow_known_refuted`, `C48_min_nan_refuted`, `C48_sum_order_refuted`. everything stated is proved on Flocq's binary64 (uses the standard library's real-number axioms). Refuted side remarks: with a NaN operand MIN/MAX depend on the operand order; overflow and infinity minus infinity give known non-numbers; a sum of three depends on the order. C48_encoding* show that the integer encoding of doubles used by the models of C17-C20, C27, C34 is the IEEE one.
* **C49** (A requested wake-up is not lost): `C49_alarm_lost_in_race_refuted`, `C49_itimer_now_lost_refuted`, `C49_itimer_early_refuted`. PosixTimebase + TimeAdapter, statement-level interleavings. The race-freedom proviso is necessary: without it an alarm is lost (refuted). The ItimerTimebase variant loses a request for the current microsecond and can wake early (refuted).
* **C50** (Time arithmetic is exact): `C50_timeval_round_trip_refuted`, `C50_small_round_trip_refuted`. on Flocq's binary64. The microsecond (timeval) round trip is false at present dates (refuted), and so is the nanosecond one near the epoch.
* **C51** (Tick mode and restart): `C51_posix_long_tick_refuted`, `C51_restart_refuted`. the property is false: on POSIX the interval is right exactly up to 4294967 us (32-bit overflow above), and a stopped time base ignores a later start
* **C52** (Lexical scoping of variables): `C52_bare_root_captures_caller_refuted`. proved for every plan in which each library root that is a plain list declares a variable or a parameter; without that the property is false: names below a bare library root are looked up in the caller (refuted)
* **C53** (In and InOut parameters): `C53_in_array_written_refuted`, `C53_in_array_written_nested_refuted`, `C53_in_array_written_general_refuted`, `C53_date_parameter_refuted`, `C53_in_default_type_refuted`, `C53_inout_array_default_refuted`. read-only for variables, identity and type proved for all accepted plans (same proviso as C52); false in four ways: elements of an In array can be assigned, Date/Duration parameters never match, an In default keeps its own type, an InOut array default is refused
* **C54** (Which mutex a name means): `C54_caller_mutex_captures_refuted`. proved unless a calling node declares a mutex with the name of the library's global mutex; then the library uses the caller's (refuted)
* **C55** (Which node a reference means): `C55_library_file_name_refuted`, `C55_child_named_as_parent_refuted`. proved for all plans whose library calls name the library by its NodeId; a call by file name breaks it (refuted); parent and child with one NodeId are accepted (refuted)
* **C57** (Expansion of library calls): `C57_recursive_library_never_loads_refuted`. ends for acyclic library collections; recursion is not detected (refuted)
* **C58** (Which expressions load): `C58_array_variable_query_refuted`, `C58_array_operand_refuted`, `C58_division_operands_refuted`, `C58_rounding_timepoint_refuted`, `C58_integer_assignment_refuted`. the loader decides typing for all expressions whose leaves have declared types and whose divisions have two operands; array variables as operands, other operand counts of DIV, elements of array lookups and rounding of timepoints break it (refuted)
* **C59** (Well-typed expressions evaluate): `C59_length_as_real_refuted`, `C59_timepoint_equality_refuted`, `C59_array_operand_refuted`, `C59_unary_division_refuted`, `C59_undeclared_lookup_order_refuted`, `C59_wrong_lookup_value_refuted`. sound unless a length or size is used as a Real, timepoints are compared with EQ/NE, or leaves are not of their declared type; each exception refuted
* **C60** (A UDP message carries exactly its arguments, and neither end leaves its buffer): `C60_size_overflow_refuted`, `C60_huge_message_throws_refuted`, `C60_short_datagram_refuted`, `C60_first_argument_refuted`, `C60_network_failure_acked_refuted`, `C60_float2_refuted`, `C60_nul_cuts_string_refuted`. proved for definitions of less than 2^31 bytes; larger ones overflow the size and the buffer (refuted). Also false of the code: a datagram shorter than the message is completed with bytes of the previous one; only messages whose first parameter is a String can be sent; a refused send is acknowledged as success; 2-byte floats are accepted but unusable; a String is cut at a NUL
* **C61** (Each received message goes to exactly one waiting command, in order, and parameters go with their message): `C61_race_refuted`, `C61_race_loses_refuted`, `C61_abort_refuted`, `C61_colon_refuted`, `C61_set_duplicates_refuted`. proved for all histories in which calls of the two threads do not overlap. The queues are not locked: overlapping calls return a message twice and pop an empty queue (refuted). Also false of the code: an aborted or failed ReceiveCommand still takes the next message; parameters of a message whose name has a colon cannot be fetched; switching duplicates off does not drop queued ones
* **C62** (The UDP event loop delivers every open port's datagrams in order and keeps running): `C62_second_socket_leaks_refuted`, `C62_event_thread_blocks_refuted`, `C62_close_ends_loop_refuted`, `C62_close_unopened_refuted`. proved for every history that opens only closed ports and closes only open ones. The adapter itself does not keep to that (a second ReceiveCommand of a message opens its port again): then a socket leaks, the event thread blocks or ends (refuted), and closing an unopened port crashes
* **C63** (Literals and names mean what they say): `C63_max_size_refuted`, `C63_priority_refuted`, `C63_handles_refuted`, `C63_leading_zero_refuted`, `C63_real_values_refuted`, `C63_array_tag_refuted`, `C63_print_real_refuted`, `C63_print_large_refuted`. all texts. Literals are as the property says, with strtol/strtod as the C standard defines them. False for array sizes (checked in base 0, built in base 10), priorities (a negative number is accepted and means another; INT_MAX is refused), three command handle names, negative zero, nan, and the tags of array elements (refuted). A Real is written with 15 correctly rounded digits, so one that was read from at most 15 digits is read back unchanged, and others are not (refuted)
* **C64** (Requests reach the handler in force, and its errors reach the plan): `C64_threshold_error_refuted`, `C64_error_after_success_refuted`, `C64_null_handler_refuted`, `C64_abort_elsewhere_refuted`, `C64_silent_lookup_refuted`, `C64_file_handlers_refuted`, `C64_args_refuted`. all registration histories and user code. Beyond the property: errors of threshold calls are not caught, null handlers are accepted, an abort may go to another handler, the built-in lookup answers nothing, handlers in the configuration file are ignored, and blanks break argument lists (refuted)
* **C65** (Listeners are told everything their filter passes, in order): `C65_ignored_refuted`, `C65_order_refuted`. all histories. An assignment made before a transition of the same step is told after it, and transitions into an ignored state are reported (refuted)
* **C66** (The stand-alone simulator sends every scripted message once, at its time, in order): `C66_whole_second_lost_refuted`, `C66_same_microsecond_lost_refuted`, `C66_equal_times_reversed_refuted`, `C66_early_in_race_refuted`, `C66_crash_in_race_refuted`, `C66_start_race_refuted`, `C66_no_default_refuted`, `C66_number_of_responses_refuted`. once and the k-th answer: all interleavings. Times, order and wake-ups: the threads take turns (early sending and a crash in a race are refuted), no message on a whole second and the timer never set for the current microsecond (both lose wake-ups: refuted). Equal times go out in reverse script order; a command without a default response kills the process
* **C67** (Messages between executives arrive whole, once, in order and as sent): `C67_handle_refuted`, `C67_sender_dies_refuted`, `C67_message_failure_refuted`, `C67_count_refuted`, `C67_nul_refuted`, `C67_restart_refuted`, `C67_serial_race_refuted`, `C67_unsubscribe_refuted`. IpcFacade part by part: serial numbers, leaders and trailers, IPC formats, destinations, the receiver's table of incomplete messages and its listeners. Under the limits named in the property the whole property is proved for any number of senders, histories and interleavings; IPC central itself (order kept per sender, no loss) is assumed. The refuted theorems show what happens outside the limits: command handles and internal values, a publish failure of a bare message reported as success, 65536 arguments, NUL, a restarted sender, two sending threads, unsubscribe.
* **C68** (Executives command, answer and look each other up over IPC): `C68_plan_file_refuted`, `C68_early_return_refuted`, `C68_early_answer_refuted`, `C68_two_answers_refuted`, `C68_request_zero_refuted`, `C68_directed_lookup_refuted`, `C68_telemetry_taken_refuted`, `C68_name_clash_refuted`, `C68_empty_update_refuted`, `C68_send_failure_refuted`, `C68_lookup_failure_refuted`, `C68_default_loses_refuted`, `C68_bad_argument_refuted`. IPC adapter as steps of two threads. Commands, labels, parameters and returned values for every history; lookups answered by the first message that answers. Counterexamples proved: plan files added as libraries, answers or values that come before the number is noted are lost, a second answer or a value for request 0 makes the next lookup unknown, directed lookups answered by anyone, telemetry taken for an answer not reported, queue name clash, empty updates not acknowledged, failed messages reported sent, failed lookups wait for ever, default settings lose commands.
* **C69** (Declared command and lookup signatures are enforced when a plan is loaded): `C69_no_arguments_refuted`, `C69_library_declarations_refuted`, `C69_misplaced_size_refuted`, `C69_junk_refuted`, `C69_two_bounds_refuted`. all declarations, plans, libraries and expressions; node syntax other than commands, lookups and library calls is abstract. Counterexamples proved: a command without Arguments escapes the check, library declarations have no effect, MaxSize before Type and junk after the parameters are let pass, two upper bounds in a resource.
* **C70** (Starting and stopping plans from plans): `C70_array_refuted`, `C70_handle_refuted`, `C70_real_refuted`, `C70_nul_refuted`, `C70_wrap_refuted`. all argument lists, libraries and histories; the plan made is read back by a model of the plan loader. False for arrays (never accepted: the Type attribute written is no type name), three command handles, Reals with more than 15 digits, names with NUL characters, and after 2^32 plans (refuted)
* **C71** (Plans can watch other plans): `C71_stale_refuted`, `C71_same_name_refuted`. all histories of reports. What is reported last is what is seen, but the outcome and failure type of an earlier iteration are not taken back when a plan repeats, and plans of the same name are confused (refuted)
* **C72** (A scripted environment does what its script says, and answers the right requester): `C72_same_command_refuted`, `C72_stale_ack_refuted`, `C72_second_update_refuted`, `C72_initial_text_refuted`, `C72_send_plan_refuted`. all scripts, executives and histories without NaN among state parameters. False in these ways: of two like commands the first is never answered, a finished command can still be acknowledged, a second update of a node is lost, an InitialState that begins with text sets nothing, SendPlan never finds the plan in a plan file (refuted)
* **C73** (Values in a script are those their text denotes): `C73_real_silent_refuted`, `C73_integer_silent_refuted`, `C73_empty_refuted`, `C73_param_true_refuted`, `C73_array_unknown_refuted`, `C73_array_parameter_refuted`, `C73_string_refuted`. all texts that denote a value. A text that denotes none is not refused: it is 0, another number or garbage; a Boolean parameter spelled true is false; arrays cannot end with an unknown and take in what follows the values (refuted)
* **C74** (Arbitration with real amounts is exact arbitration): `C74_stuck_refuted`, `C74_absorbed_refuted`, `C74_nan_refuted`. all hierarchies, batches and histories whose amounts are multiples of a common binary unit: there the doubles are exact. With other amounts (0.1, 0.7; 2^53 and 1; NaN) what is given back is not what was taken: a resource nobody holds is refused forever, or more is granted than there is (refuted); what is recorded still never exceeds the maximum
* **C75** (A resource hierarchy file means what it says): `C75_failure_keeps_refuted`, `C75_directory_refuted`, `C75_no_weight_refuted`, `C75_glued_refuted`, `C75_comment_refuted`. all files of lines that follow the grammar, and all files with a line that breaks it in one of the ways listed. A refused file leaves the entries before the bad line in force and forgets the hierarchy known before; a part whose weight is missing is accepted when its name begins like inf or nan; numbers may be glued to names; a directory is read forever (refuted)
* **C76** (Finalizers run once each, last registered first): `C76_nested_lost_refuted`, `C76_nested_overwrites_refuted`, `C76_nested_bucket_refuted`. all programs whose finalizers register no others. One registered by a finalizer during a run is not called, or is called in place of another that is lost (refuted)
* **C77** (A debug message is enabled iff a pattern asked for occurs in its marker): `C77_colon_refuted`. all histories and texts without NUL characters; a line that is only a colon asks for the empty pattern and enables every message (shown as C77_colon_refuted: it follows the rule but is hardly meant)
* **C78** (A viewer can tell from what it is sent what happened): `C78_together_refuted`, `C78_not_escaped_refuted`. all histories whose names and values have no < in them and no text of which has the end-of-message character; values are not escaped, so that without that an assignment can look like two (refuted). The lockstep holds for all chunks in which acknowledgements come first and one to a chunk: two that arrive together count once, one that comes second not at all (refuted)
* **C79** (A simulator script means what it says): `C79_negative_refuted`, `C79_negative_next_refuted`, `C79_no_newline_refuted`, `C79_last_remark_refuted`, `C79_unknown_refuted`, `C79_handle_refuted`, `C79_broken_refuted`, `C79_no_name_refuted`. all scripts whose lines all end with a newline, whose values begin with a letter or digit, and whose entries are of type Boolean, Integer, Real, String or command handle. Otherwise it fails (refuted): a negative value is skipped as a remark and the next line taken instead; a last line without a newline is dropped or, if a remark, not skipped; UNKNOWN is an uninitialised variable; a command with a return type cannot be answered with a command handle, one without cannot be answered at all; after an unreadable entry the rest of the file is ignored; a value followed by a blank or carriage return ends the simulator.
* **C80** (Plan statistics are right): `C80_single_refuted`, `C80_alias_refuted`. all plans whose root has a child and in which the first vector of variables met is not empty. A plan that is a single node, and one in which a library call whose aliases are all plain variables is the first node with variables, make the analyser write past the end of a vector it has just emptied (refuted)
* **C81** (What a Node element may contain): `C81_action_complete_refuted`. all sequences of children and all names. The results of the checks of the children's contents are taken as given here (those of scopes, references, library calls and expressions are C52 to C58). One name has no index: that of the action-complete condition (refuted), which no plan can give

## Trusted base

* Coq 8.16.1's kernel (vm_compute is used in examples and witnesses).
* The fidelity of the models to the C++, as cited line by line. Common idealisations: memory
  allocation succeeds; counters of type size_t/unsigned do not wrap unless stated; memory is sequentially
  consistent; std containers behave as specified.
* `Print Assumptions` is printed under every theorem in the `*Props.v` files. It says "Closed under the
  global context" for all theorems except
  - 17 of FloatProps.v (C48), 11 of AlarmProps.v (C49-C51), 10 of TypeProps.v (C58, C59) , those of UdpProps.v (C60) 4 of UdpQueueProps.v (C61) 12 of LitProps.v and those of PrintProps.v (C63), those of LaunchProps.v about Reals (C70), those of TestLitProps.v about Reals and arrays of them (C73) those of ArbFloatProps.v about amounts (C74) those of ResFileProps.v (C75) and those of ScriptProps.v (C79), which use Coq's standard real numbers: `ClassicalDedekindReals.sig_forall_dec`,
    `ClassicalDedekindReals.sig_not_dec`, `FunctionalExtensionality.functional_extensionality_dep` and
    `Classical_Prop.classic` (the last through Flocq, which adds no axiom of its own).
* The gate's listing by loaded modules also names `Coq.ssr.ssrunder.Under_rel.*` and `Coq.Reals.Rdefinitions.*Impl`: opaque module
  fields of Coq's own libraries, reported because those libraries are loaded; no theorem's `Print Assumptions` lists the former.
* No axiom, Parameter, Admitted, functor or module type is declared in `theories/`.

## Not modelled

XML parsing (pugixml); plan construction beyond the parts listed above (src/xml-parser); dynamic loading and adapter
registration; sockets, IPC and the concrete adapters other than those listed; logging, printing beyond the parts listed and
listeners other than LuvListener; destruction of nodes and expressions; real time and timers; plan-level garbage collection.
