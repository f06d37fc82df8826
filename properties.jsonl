{"id": "C01", "title": "Simulation time never runs backwards", "statement": "While a simulation runs, the simulation time reported at the start of successive entry point executions, and at any two successive observations, never decreases.", "quantifier": "every sequence of scheduler API calls, entry point behaviours, holds and re-runs, from any thread", "why_tests_cant": "The order depends on an unbounded interleaving of posts, removals and re-schedulings; a test samples a handful of schedules.", "anchors": ["src/Xsmp/Services/XsmpScheduler.cpp:_EnterExecuting", "src/Xsmp/Services/XsmpTimeKeeper.cpp:SetSimulationTime"]}
{"id": "C02", "title": "Events fire exactly at their scheduled simulation time", "statement": "A simulation-time event is started when, and only when, the simulation time equals the instant it is currently scheduled for; it is never early and never late.", "quantifier": "every event and every history of scheduler calls", "why_tests_cant": "Requires an invariant relating the time index to each event record over all histories.", "anchors": ["src/Xsmp/Services/XsmpScheduler.cpp:AddEvent", "src/Xsmp/Services/XsmpScheduler.cpp:SetEventTime", "src/Xsmp/Services/XsmpScheduler.cpp:Execute"]}
{"id": "C03", "title": "First scheduled, first executed at one instant", "statement": "Among the events pending for one instant when that instant is processed, the one posted first (smaller event id) runs first; immediate events posted by a running entry point run before the remaining events of that instant.", "quantifier": "every set of events due at the same instant, every way entry points post further events", "why_tests_cant": "Quantifies over all batches and all insertions during a batch.", "anchors": ["src/Xsmp/Services/XsmpScheduler.cpp:ExecuteEvents", "src/Xsmp/Services/XsmpScheduler.cpp:ExecuteImmediateEvents", "src/Xsmp/Services/XsmpScheduler.h:EventList"]}
{"id": "C04", "title": "Repeat count and cycle are exact", "statement": "An event posted for time t with cycle c and repeat n>=0 that nobody modifies is executed at t, t+c, ..., t+n*c and then never again; with repeat -1 it stays scheduled for ever, its k-th execution being at t+k*c.", "quantifier": "every t, c>0, n and every activity of the other events", "why_tests_cant": "n and the interleaved activity are unbounded.", "anchors": ["src/Xsmp/Services/XsmpScheduler.cpp:Execute", "src/Xsmp/Services/XsmpScheduler.cpp:AddEvent"]}
{"id": "C05", "title": "A removed event is never executed again", "statement": "Once RemoveEvent(id) has returned without exception, the entry point of that event is not started again (the current execution, if any, is finished).", "quantifier": "every event id, every state of the scheduler, every later history", "why_tests_cant": "Must hold at every point where the removal can interleave with a batch in progress.", "anchors": ["src/Xsmp/Services/XsmpScheduler.cpp:RemoveEvent", "src/Xsmp/Services/XsmpScheduler.cpp:Execute"]}
{"id": "C06", "title": "Event identifiers are unique", "statement": "Every Add*Event call returns an identifier never returned before, different from every identifier still registered.", "quantifier": "every history of API calls", "why_tests_cant": "Unbounded histories.", "anchors": ["src/Xsmp/Services/XsmpScheduler.cpp:AddImmediateEvent", "src/Xsmp/Services/XsmpScheduler.cpp:AddEvent", "src/Xsmp/Services/XsmpScheduler.cpp:AddZuluTimeEvent"]}
{"id": "C07", "title": "Invalid posts are rejected without effect", "statement": "Posting an event in the past throws InvalidEventTime, posting a cyclic event with a non positive cycle throws InvalidCycleTime, using an unknown id or the wrong time kind throws InvalidEventId; in each case nothing is changed. No accepted sequence of calls leaves a cyclic event with a non-positive cycle.", "quantifier": "every state, every argument value, every history", "why_tests_cant": "All integer arguments and all histories (the cyclic/cycle rule is an invariant over setters).", "anchors": ["src/Xsmp/Services/XsmpScheduler.cpp:AddEvent", "src/Xsmp/Services/XsmpScheduler.cpp:SetEventCycleTime", "src/Xsmp/Services/XsmpScheduler.cpp:SetEventRepeat"]}
{"id": "C08", "title": "No pending event is jumped over", "statement": "Simulation time is only advanced to the earliest pending instant: when the time moves to T no registered simulation, mission or epoch event is still scheduled before T; GetNextScheduledEventTime is the minimum over the pending events.", "quantifier": "every history, including calls made from other threads while the scheduler waits", "why_tests_cant": "Interleavings with the waiting scheduler are unbounded.", "anchors": ["src/Xsmp/Services/XsmpScheduler.cpp:_EnterExecuting", "src/Xsmp/Services/XsmpScheduler.cpp:GetNextScheduledEventTime", "src/Xsmp/Services/XsmpTimeKeeper.cpp:SetSimulationTime"]}
{"id": "C09", "title": "Hold stops promptly and loses nothing", "statement": "After a hold is requested no further simulation entry point is started before the next run, and every event still due at the held instant is executed, in the same order, by the next run.", "quantifier": "every point of an execution at which the hold is requested", "why_tests_cant": "The hold can fall at any point of any batch.", "anchors": ["src/Xsmp/Services/XsmpScheduler.cpp:ExecuteEvents", "src/Xsmp/Services/XsmpScheduler.cpp:_LeaveExecuting", "src/Xsmp/Simulator.cpp:Hold"]}
{"id": "C10", "title": "Scheduler calls are safe at any moment", "statement": "Any scheduler API call made while the simulation runs (from an entry point, a time-change handler or another thread) leaves the scheduler usable: no dangling iterator or reference is used, no internal exception escapes the run loop.", "quantifier": "every API call at every point of every execution", "why_tests_cant": "Memory safety under all interleavings of the run loop and API calls.", "anchors": ["src/Xsmp/Services/XsmpScheduler.cpp:_EnterExecuting", "src/Xsmp/Services/XsmpScheduler.cpp:RemoveEvent", "src/Xsmp/Services/XsmpScheduler.cpp:SetEventTime"]}
{"id": "C11", "title": "Scheduler state survives Store/Restore", "statement": "Restoring a scheduler from what it stored yields a scheduler whose future executions are the same (same pending events of every time kind, same identifiers).", "quantifier": "every reachable scheduler state", "why_tests_cant": "All reachable states and all futures.", "anchors": ["src/Xsmp/Services/XsmpScheduler.cpp:Store", "src/Xsmp/Services/XsmpScheduler.cpp:Restore"]}
{"id": "C12", "title": "Simulation and Zulu execution never deadlock", "statement": "The simulation thread and the Zulu thread can always make progress: no reachable interleaving leaves both blocked on each other's mutex.", "quantifier": "every interleaving of the two threads", "why_tests_cant": "Races need a specific interleaving; tests do not enumerate them.", "anchors": ["src/Xsmp/Services/XsmpScheduler.cpp:Execute", "src/Xsmp/Services/XsmpScheduler.cpp:ExecuteZulu"]}
{"id": "C13", "title": "Zulu events are executed once due, in order", "statement": "A Zulu event is never started before its Zulu time, Zulu events are started in the order of their times then ids, and removing a Zulu event never affects simulation-time events.", "quantifier": "every set of Zulu events and every evolution of the clock", "why_tests_cant": "Unbounded histories of posts and clock readings.", "anchors": ["src/Xsmp/Services/XsmpScheduler.cpp:InternalZuluRun", "src/Xsmp/Services/XsmpScheduler.cpp:ExecuteZulu", "src/Xsmp/Services/XsmpScheduler.cpp:RemoveEvent"]}
{"id": "C14", "title": "Epoch and mission time follow simulation time", "statement": "Epoch time minus simulation time is changed only by SetEpochTime, mission time minus epoch time only by SetMissionTime/SetMissionStartTime; after SetEpochTime(x) the epoch time is x, after SetMissionTime(x) the mission time is x.", "quantifier": "every history of time keeper calls", "why_tests_cant": "Unbounded histories and all 64-bit values.", "anchors": ["src/Xsmp/Services/XsmpTimeKeeper.cpp:SetEpochTime", "src/Xsmp/Services/XsmpTimeKeeper.cpp:SetMissionTime", "src/Xsmp/Services/XsmpTimeKeeper.cpp:SetMissionStartTime"]}
{"id": "C15", "title": "Simulation time is only changed inside the change window", "statement": "SetSimulationTime changes the time only between PreSimTimeChange and PostSimTimeChange and only to a value between the current time and the next scheduled event time; outside the window it has no effect, outside the range it throws InvalidSimulationTime and changes nothing.", "quantifier": "every history of calls and events", "why_tests_cant": "The window can be left open by a hold; needs an invariant over all histories.", "anchors": ["src/Xsmp/Services/XsmpTimeKeeper.cpp:SetSimulationTime", "src/Xsmp/Services/XsmpTimeKeeper.cpp:_PreSimTimeChange"]}
{"id": "C16", "title": "Simulator follows the SMP state machine", "statement": "The simulator state only changes along the documented transitions (Building, Connecting, Initialising, Standby, Executing, Storing, Restoring, Reconnecting, Exiting, Aborting).", "quantifier": "every sequence of state commands, including those issued from transition handlers", "why_tests_cant": "Re-entrant commands from handlers make the set of histories infinite.", "anchors": ["src/Xsmp/Simulator.cpp:Connect", "src/Xsmp/Simulator.cpp:Run", "src/Xsmp/Simulator.cpp:Hold", "src/Xsmp/Simulator.cpp:Abort"]}
{"id": "C17", "title": "State commands out of state are ignored", "statement": "A state command issued in a state that does not allow it changes neither the simulator state nor any component and emits no global event.", "quantifier": "every command and every state", "why_tests_cant": "All command/state/handler combinations over all histories.", "anchors": ["src/Xsmp/Simulator.cpp:Initialise", "src/Xsmp/Simulator.cpp:Store", "src/Xsmp/Simulator.cpp:Exit"]}
{"id": "C18", "title": "Abort is final", "statement": "Once Abort has been called the simulator state is Aborting and no later command, nor the command during which Abort was called, changes it.", "quantifier": "every history and every nesting of Abort inside other commands", "why_tests_cant": "Abort may be raised inside any handler of any transition.", "anchors": ["src/Xsmp/Simulator.cpp:Abort", "src/Xsmp/Simulator.cpp:Connect", "src/Xsmp/Helper.cpp:SafeExecute"]}
{"id": "C19", "title": "Initialisation entry points run exactly once, in order", "statement": "Each entry point registered with AddInitEntryPoint is executed exactly once, in registration order, by the next initialisation phase.", "quantifier": "every history of registrations and initialisations", "why_tests_cant": "Unbounded histories, registrations during initialisation.", "anchors": ["src/Xsmp/Simulator.cpp:AddInitEntryPoint", "src/Xsmp/Simulator.cpp:Initialise"]}
{"id": "C20", "title": "Event names and identifiers are in bijection", "statement": "QueryEventId always returns the same identifier for the same name and different identifiers for different names; the predefined SMP names keep their standard identifiers 1 to 19.", "quantifier": "every sequence of queries and names", "why_tests_cant": "Unbounded histories and all names.", "anchors": ["src/Xsmp/Services/XsmpEventManager.cpp:QueryEventId"]}
{"id": "C21", "title": "Emit notifies exactly the current subscribers in order", "statement": "Emit(id) executes each entry point subscribed to id at the time of the call exactly once, in subscription order; entry points (un)subscribed meanwhile take effect for the next Emit.", "quantifier": "every subscription history and every behaviour of the notified entry points", "why_tests_cant": "Entry points may subscribe/unsubscribe reentrantly in any way.", "anchors": ["src/Xsmp/Services/XsmpEventManager.cpp:Emit", "src/Xsmp/Services/XsmpEventManager.cpp:Subscribe", "src/Xsmp/Services/XsmpEventManager.cpp:Unsubscribe"]}
{"id": "C22", "title": "Event manager state survives Store/Restore", "statement": "After Restore of what was stored, QueryEventId, Subscribe, Unsubscribe and Emit behave as at the time of Store.", "quantifier": "every reachable event manager state and every later history", "why_tests_cant": "All reachable states and futures.", "anchors": ["src/Xsmp/Services/XsmpEventManager.cpp:Store", "src/Xsmp/Services/XsmpEventManager.cpp:Restore"]}
{"id": "C23", "title": "Link counts are exact", "statement": "GetLinkCount(source,target) equals the number of AddLink minus the number of successful RemoveLink calls for that pair; RemoveLink returns false exactly when that number is zero and then changes nothing.", "quantifier": "every history of AddLink/RemoveLink", "why_tests_cant": "Unbounded histories (also counter wrap-around).", "anchors": ["src/Xsmp/Services/XsmpLinkRegistry.cpp:AddLink", "src/Xsmp/Services/XsmpLinkRegistry.cpp:RemoveLink", "src/Xsmp/Services/XsmpLinkRegistry.cpp:GetLinkCount"]}
{"id": "C24", "title": "Link sources are complete", "statement": "GetLinkSources(target) lists exactly the components with a non-zero link count to target, each once; AddLink never fails.", "quantifier": "every history and every set of components, including components with equal names", "why_tests_cant": "Needs components with equal names in different composites, any history.", "anchors": ["src/Xsmp/Services/XsmpLinkRegistry.cpp:GetLinkSources", "src/Xsmp/Services/XsmpLinkRegistry.cpp:AddLink"]}
{"id": "C25", "title": "Containers respect their bounds and unique names", "statement": "A container never holds more components than its upper bound, removal never brings it below its lower bound, two components of one composite never share a name, iteration order is insertion order, and a component of the right type and parent is accepted whenever there is room and its name is free.", "quantifier": "every history of add and delete calls, every bound", "why_tests_cant": "Unbounded histories and all bounds including -1.", "anchors": ["src/Xsmp/Container.cpp:AddComponent", "include/Xsmp/Container.h"]}
{"id": "C26", "title": "References respect their bounds", "statement": "A reference never holds more components than its upper bound, RemoveComponent never brings it below its lower bound, and a failed call changes nothing.", "quantifier": "every history of add, remove and link removal calls, every bound", "why_tests_cant": "Unbounded histories and all bounds including -1.", "anchors": ["src/Xsmp/Reference.cpp:AddComponent", "include/Xsmp/Reference.h"]}
{"id": "C27", "title": "Object names obey the SMP grammar", "statement": "checkName accepts exactly the names of the form letter (letter|digit|_)* or '[' digit+ ']', returns them unchanged, and rejects everything else including null and empty, without reading past the terminator.", "quantifier": "every byte string", "why_tests_cant": "All strings.", "anchors": ["src/Xsmp/Helper.cpp:checkName"]}
{"id": "C28", "title": "GetPath and Resolve are inverse", "statement": "For every object of a component tree with valid names, resolving the path returned by GetPath yields that object, and distinct objects have distinct paths.", "quantifier": "every finite object tree", "why_tests_cant": "All trees, all depths.", "anchors": ["src/Xsmp/Helper.cpp:GetPath", "src/Xsmp/Helper.cpp:Resolve"]}
{"id": "C29", "title": "Relative paths are interpreted step by step", "statement": "Resolving a path 'p/q' from an object is resolving q from the result of resolving p; '.' stays, '..' goes to the parent.", "quantifier": "every object, every pair of paths", "why_tests_cant": "All trees and all path strings.", "anchors": ["src/Xsmp/Helper.cpp:Resolve", "src/Xsmp/Helper.cpp:GetNextSegment"]}
{"id": "C30", "title": "CopyString never overruns and always terminates", "statement": "CopyString writes at most size+1 bytes, the destination is NUL terminated and holds the longest prefix of the source that fits; every caller passes a buffer of size+1 bytes.", "quantifier": "every source string and every capacity", "why_tests_cant": "All lengths.", "anchors": ["src/Xsmp/Helper.cpp:CopyString", "src/Xsmp/Publication/Field.cpp:SetValue"]}
{"id": "C31", "title": "Integer conversions preserve the value or throw", "statement": "Storing an integer in an AnySimple of an integral kind and reading an AnySimple as an integral type either preserve the mathematical value or throw InvalidAnyType, and succeed whenever the value is representable.", "quantifier": "every pair of kinds and every value", "why_tests_cant": "10x10 kinds times 2^64 values.", "anchors": ["src/Smp/AnySimple.cpp:SetValue", "src/Smp/AnySimple.cpp:convertIntegral", "src/Smp/utility.h:in_range"]}
{"id": "C32", "title": "AnySimple equality is an equivalence", "statement": "operator== on AnySimple is reflexive, symmetric and transitive.", "quantifier": "every pair and triple of values", "why_tests_cant": "All kinds and values.", "anchors": ["src/Smp/AnySimple.cpp:operator=="]}
{"id": "C33", "title": "UUID text form round-trips", "statement": "Printing a UUID and parsing the text yields the same UUID; parsing accepts exactly the 36-character hexadecimal 8-4-4-4-12 form and printing the result gives the lower-case text back.", "quantifier": "every UUID and every string", "why_tests_cant": "2^128 values, all strings.", "anchors": ["src/Smp/Uuid.cpp:from", "src/Smp/StreamOperators.cpp:operator<<"]}
{"id": "C34", "title": "UUID order is a strict total order compatible with equality", "statement": "operator< on UUIDs is irreflexive, transitive and total with respect to operator==, so UUID-keyed registries behave as maps; equal UUIDs have equal hashes.", "quantifier": "every pair and triple of UUIDs", "why_tests_cant": "2^128 values.", "anchors": ["src/Smp/Uuid.cpp:operator<", "src/Smp/Uuid.cpp:hash"]}
{"id": "C35", "title": "Fixed strings stay within capacity", "statement": "Every operation of String<N> keeps the content NUL terminated inside its N+1 bytes; assign and append keep the longest prefix that fits.", "quantifier": "every capacity, content and sequence of operations", "why_tests_cant": "All lengths and sequences of operations.", "anchors": ["include/Xsmp/String.h:assign", "include/Xsmp/String.h:append", "include/Xsmp/String.h:remove_prefix", "include/Xsmp/String.h:remove_suffix"]}
{"id": "C36", "title": "Fixed string comparison is lexicographic", "statement": "The comparison operators of String<N> are the lexicographic order of the byte contents, a total order, consistent with equality, whatever the capacities.", "quantifier": "every pair and triple of strings", "why_tests_cant": "All contents.", "anchors": ["include/Xsmp/String.h:compare"]}
{"id": "C37", "title": "Persist round-trips every supported type", "statement": "Restoring from exactly the bytes that Store wrote yields the stored value and leaves the reader at the end of those bytes, so sequences of Stores can be restored in the same order.", "quantifier": "every value of every nesting of the supported types (arithmetic, string, array, vector, list, set, map, pair, atomic)", "why_tests_cant": "Types nest without bound and values are unbounded.", "anchors": ["include/Xsmp/Persist.h", "include/Xsmp/Persist"]}
{"id": "C38", "title": "Truncated or foreign storage is detected", "statement": "Restore from a storage that ends too early, or that was written for another type signature, throws CannotRestore; it never returns a value.", "quantifier": "every storage content", "why_tests_cant": "All byte strings.", "anchors": ["src/Xsmp/StorageReader.cpp", "include/Xsmp/Persist.h:Restore"]}
{"id": "C39", "title": "Forced fields keep their value", "statement": "Between Force/Freeze and the next Unforce, Force or Restore no SetValue, assignment or dataflow push changes the field; after Unforce writes take effect again; a failed Force leaves the field as it was.", "quantifier": "every history of operations on the field", "why_tests_cant": "Unbounded histories.", "anchors": ["src/Xsmp/Field.cpp:AbstractForcibleField", "include/Xsmp/Field.h:SimpleField::SetValue"]}
{"id": "C40", "title": "Connected inputs follow their outputs", "statement": "After any assignment to a connected output field through any of its interfaces, every directly or transitively connected input that is not forced holds the same value, and the assignment terminates.", "quantifier": "every dataflow graph and every history of assignments", "why_tests_cant": "All graphs and histories.", "anchors": ["src/Xsmp/Field.cpp:FieldHelper", "include/Xsmp/Field.h:SimpleField::SetValue", "include/Xsmp/Field.h:SimpleArrayField::SetValue"]}
{"id": "C41", "title": "Dataflow connections are validated", "statement": "Connect accepts a target exactly when source is an output, target an input, different from source, of equivalent type and not yet connected; a rejected Connect changes nothing and Disconnect undoes Connect.", "quantifier": "every pair of (nested) fields and every connection history", "why_tests_cant": "Structures nest without bound.", "anchors": ["src/Xsmp/Field.cpp:Connect", "src/Xsmp/Publication/Field.cpp:Connect"]}
{"id": "C42", "title": "State fields round-trip through Store/Restore", "statement": "Storing a field tree and restoring it gives every state field, forced flag and failure flag its value back, leaves transient fields alone and consumes exactly the bytes written.", "quantifier": "every field tree and value", "why_tests_cant": "Trees nest without bound.", "anchors": ["include/Xsmp/Field.h", "src/Xsmp/Field.cpp", "src/Xsmp/Publication/Field.cpp"]}
{"id": "C43", "title": "Request parameters are validated and indexed consistently", "statement": "GetParameterIndex is a bijection between parameter names and 0..count-1; SetParameterValue accepts exactly values valid for the parameter type (kind, range, length, literal) and a rejected call changes nothing; GetParameterValue returns the last accepted value.", "quantifier": "every operation signature, every value, every history of calls", "why_tests_cant": "All signatures, values and histories.", "anchors": ["src/Xsmp/Publication/Request.cpp"]}
{"id": "C44", "title": "Request marshalling round-trips", "statement": "Reading a (nested) argument from a request into which it was written gives the same argument; writing one parameter does not disturb another.", "quantifier": "every nested parameter type and value", "why_tests_cant": "Types nest without bound.", "anchors": ["src/Xsmp/Request.cpp", "include/Xsmp/Request.h"]}
{"id": "C45", "title": "Type registry is a consistent, append-only map", "statement": "At most one type is registered per UUID, a failed registration changes nothing, registered types never change, class inheritance is acyclic, and the fields of every published type can be expanded in finitely many steps.", "quantifier": "every history of registrations", "why_tests_cant": "Unbounded histories of registrations.", "anchors": ["src/Xsmp/Publication/TypeRegistry.cpp:AddType", "src/Xsmp/Publication/Type.cpp:ClassType"]}
{"id": "C46", "title": "Enumeration fields only hold declared literals", "statement": "SetValue on a field (or item of an array field) whose type is an enumeration accepts exactly the declared literals.", "quantifier": "every enumeration type, memory size and value", "why_tests_cant": "All enumerations and values.", "anchors": ["src/Xsmp/Publication/Field.cpp:isInvalidEnumerationValue", "src/Xsmp/Publication/Field.cpp:SimpleArrayField::SetValue"]}
{"id": "C47", "title": "Log kinds are stable", "statement": "QueryLogMessageKind returns the same kind for the same name and different kinds for different names, the predefined kinds keep their values, also across Store/Restore.", "quantifier": "every sequence of queries", "why_tests_cant": "Unbounded histories.", "anchors": ["src/Xsmp/Services/XsmpLogger.cpp:QueryLogMessageKind"]}
{"id": "C48", "title": "Every log message is delivered exactly once in order", "statement": "Each message logged before the logger is destroyed is passed to every appender exactly once, in the order of the Log calls, and the logger's destruction terminates after delivering them.", "quantifier": "every interleaving of logging threads, the worker thread and the destructor", "why_tests_cant": "Unbounded interleavings.", "anchors": ["src/Xsmp/Services/XsmpLogger.cpp:LoggerProcessor"]}
{"id": "C49", "title": "Component life cycle is respected", "statement": "A component goes through Created, Publishing, Configured, Connected, Disconnected in this order; a call in another state throws InvalidComponentState and changes nothing.", "quantifier": "every sequence of calls", "why_tests_cant": "All sequences.", "anchors": ["src/Xsmp/Component.cpp"]}
{"id": "C50", "title": "Factories are unique by UUID", "statement": "At most one factory per UUID is registered; GetFactory(uuid) returns the factory registered with that UUID; iteration follows registration order; a rejected registration changes nothing.", "quantifier": "every history of registrations", "why_tests_cant": "Unbounded histories.", "anchors": ["src/Xsmp/FactoryCollection.cpp", "src/Xsmp/Simulator.cpp:RegisterFactory"]}
{"id": "C51", "title": "Event sources notify each subscribed sink once", "statement": "Subscribe accepts a sink exactly when the argument types agree and it is not yet subscribed; Emit notifies each subscribed sink exactly once with the emitted value; after RemoveLinks(target) no sink of target is subscribed and all others are.", "quantifier": "every history of calls, every behaviour of sinks", "why_tests_cant": "Unbounded histories and re-entrant sinks.", "anchors": ["src/Xsmp/EventSource.cpp"]}
{"id": "C52", "title": "Duration and DateTime conversions are exact", "statement": "Every duration unit constructor and literal denotes exactly that many nanoseconds, converting back to that unit recovers the count and converting any duration to a coarser unit truncates toward zero; converting a DateTime to a clock time point and back (and conversely) is the identity and preserves order and differences.", "quantifier": "every 64-bit count for which the C++ arithmetic does not overflow", "why_tests_cant": "2^64 values.", "anchors": ["include/Xsmp/Duration.h", "include/Xsmp/DateTime.h"]}
{"id": "C53", "title": "Logger configuration text is parsed faithfully", "statement": "split returns the trimmed fields between delimiters, unescape inverts escaping, pattern layouts terminate and read only inside the pattern.", "quantifier": "every configuration string", "why_tests_cant": "All strings.", "anchors": ["src/Xsmp/Services/XsmpLogger.cpp:split", "src/Xsmp/Services/XsmpLogger.cpp:unescape", "src/Xsmp/Services/XsmpLogger.cpp:PatternLayout"]}
{"id": "C54", "title": "Type equivalence is an equivalence relation", "statement": "AreEquivalent on types and fields is reflexive, symmetric and transitive, and two fields it accepts have the same shape, so that a push between them is always well-typed.", "quantifier": "every pair and triple of types", "why_tests_cant": "Types nest without bound.", "anchors": ["src/Xsmp/Helper.cpp:AreEquivalent"]}
{"id": "C55", "title": "A fallible model is failed exactly when one of its failures is", "statement": "IsFailed is true exactly when at least one registered failure is failed, over any history of Fail, Unfail and Restore.", "quantifier": "every set of failures and history", "why_tests_cant": "Unbounded histories.", "anchors": ["src/Xsmp/FallibleModel.cpp", "src/Xsmp/Field.cpp:Failure"]}
{"id": "C56", "title": "Collections look up what was added", "statement": "at(name) returns the element with that name or null, at(index) the index-th added element or null, size is the number of elements, a duplicate name is rejected without effect.", "quantifier": "every history of Add/Remove/clear", "why_tests_cant": "Unbounded histories.", "anchors": ["include/Xsmp/Collection.h"]}
{"id": "C57", "title": "RemoveLinks asks every linking source", "statement": "RemoveLinks(target) calls RemoveLinks(target) on every registered source of the target that implements ILinkingComponent, whatever these sources do to the registry while being asked.", "quantifier": "every history, any number of sources, any behaviour of the sources", "why_tests_cant": "Depends on what user components do during the call and on the number of sources.", "anchors": ["src/Xsmp/Services/XsmpLinkRegistry.cpp:RemoveLinks"]}
{"id": "C58", "title": "CanRemove tells whether all links can be removed", "statement": "CanRemove(target) is true exactly when every component that has a link to the target implements ILinkingComponent.", "quantifier": "every history of AddLink/RemoveLink", "why_tests_cant": "Unbounded histories and components.", "anchors": ["src/Xsmp/Services/XsmpLinkRegistry.cpp:CanRemove"]}
{"id": "C59", "title": "The simulator rests between commands", "statement": "Whenever no command is being executed the simulator is in Building, Standby, Executing, Exiting or Aborting: no command, returning or throwing, leaves it in Connecting, Initialising, Storing, Restoring or Reconnecting.", "quantifier": "every history of commands, every behaviour of handlers, components and storage", "why_tests_cant": "Depends on what user code does (including exceptions) at every point of every command.", "anchors": ["src/Xsmp/Simulator.cpp:Store", "src/Xsmp/Simulator.cpp:Restore", "src/Xsmp/Simulator.cpp:Connect"]}
{"id": "C60", "title": "A deferred hold concerns the current run only", "statement": "After Hold(false) the run is left at the next PreSimTimeChange; a run during which nobody calls Hold or Abort is not stopped.", "quantifier": "every history of commands", "why_tests_cant": "Unbounded histories and nestings.", "anchors": ["src/Xsmp/Simulator.cpp:Hold", "src/Xsmp/Simulator.cpp:_holdImmediately"]}
{"id": "C61", "title": "IsAncestor answers whether an object is on the parent chain", "statement": "IsAncestor(a, o) ends and is true exactly when a is o or one of the ancestors of o; it is false when a or o is null.", "quantifier": "every finite parent chain, every pair of objects", "why_tests_cant": "Object trees are unbounded.", "anchors": ["src/Xsmp/Helper.cpp:IsAncestor"]}
{"id": "C62", "title": "Strings in AnySimple have one owner", "statement": "Every string an AnySimple allocates is freed exactly once, by the object that holds it or by the caller that took it with MoveString; a copy has the value of the original and is not affected by what is done to the original afterwards.", "quantifier": "every history of constructions, copies, moves, SetValue, MoveString and destructions over any number of objects, and every allocation failure", "why_tests_cant": "Ownership depends on the whole history of copies and moves; leaks and dangling reads are not observed by value tests.", "anchors": ["src/Smp/AnySimple.cpp:operator=", "src/Smp/AnySimple.cpp:SetValue", "src/Smp/AnySimple.cpp:MoveString"]}
{"id": "C63", "title": "The simulator takes every component through its life", "statement": "Over any history of Publish, Configure, Connect, Reconnect and Exit of the simulator, each component of the tree receives Publish, Configure, Connect, Disconnect in this order and each at most once; when Publish, Configure or Connect return without exception every component of the tree has got that far.", "quantifier": "every component tree (any depth, any number of containers and components, components created on the way), every history of commands, every component throwing at any call", "why_tests_cant": "Component trees are unbounded and components create others while the walk is going on.", "anchors": ["src/Xsmp/Simulator.cpp:Publish", "src/Xsmp/Simulator.cpp:Configure", "src/Xsmp/Simulator.cpp:Connect", "src/Xsmp/Simulator.cpp:Reconnect", "src/Xsmp/Simulator.cpp:Exit"]}
{"id": "C64", "title": "Each hook of a generated component is called once", "statement": "DoPublish, DoConfigure, DoConnect and DoDisconnect of a generated component are called exactly once each, when the corresponding call is accepted, and not when it is refused.", "quantifier": "every sequence of Publish/Configure/Connect/Disconnect, every set of declared hooks", "why_tests_cant": "Sequences of calls are unbounded.", "anchors": ["include/Xsmp/ComponentHelper.h:Configure", "include/Xsmp/ComponentHelper.h:Disconnect"]}
{"id": "C65", "title": "Durations compare with chrono durations by length", "statement": "Each of ==, !=, <, <=, >, >= between an Xsmp::Duration and a std::chrono::duration (in either order) compares the two lengths of time, and the six operators are consistent with each other.", "quantifier": "every duration and every chrono period and count for which the arithmetic does not overflow", "why_tests_cant": "Unbounded values and user chosen periods.", "anchors": ["include/Xsmp/Duration.h:operator<", "include/Xsmp/Duration.h:operator=="]}
{"id": "C66", "title": "No logger configuration makes logging undefined", "statement": "Whatever the properties file contains, logging a message either writes it in the configured layout or reports the configuration error; it never dereferences a missing layout or reads outside the pattern, and entries the filters refuse are not written.", "quantifier": "every properties file, appender and log entry", "why_tests_cant": "The configuration is an arbitrary text file; tests use the default one.", "anchors": ["src/Xsmp/Services/XsmpLogger.cpp:Appender", "src/Xsmp/Services/XsmpLogger.cpp:PatternLayout"]}
{"id": "C67", "title": "The component tree is restored as it was stored", "statement": "Storing the simulation and restoring it into the same tree of components gives every state field of every component, and the state components store themselves, its value back and changes nothing else; a truncated file raises CannotRestore", "quantifier": "all component trees, field trees, memories before storing and before restoring, and truncation points", "why_tests_cant": "tests store small trees and restore them unchanged; sizes, nesting and truncation points are unbounded", "anchors": ["src/Xsmp/Simulator.cpp: Store, Restore, check", "src/Xsmp/Publication/Field.cpp", "include/Xsmp/Field.h", "src/Xsmp/StorageReader.cpp"]}
{"id": "C68", "title": "A component has one operation or property per name, and CreateRequest finds it", "statement": "Publishing operations and properties, in any order and any number of times, leaves at most one operation and one property per name, all with valid names; publishing an operation again empties it in place; CreateRequest(name) returns null or a request whose GetOperationName is that name, bound to the operation of that name or, if there is none, to the property getter or setter the name denotes.", "quantifier": "every sequence of publications, every name and every type registry", "why_tests_cant": "the fallback from operations to properties and the effect of publishing again depend on the whole publication history", "anchors": ["src/Xsmp/Publication/Publication.cpp: PublishOperation, PublishProperty, CreateRequest, CreateGetRequest, CreateSetRequest, Unpublish", "src/Xsmp/Publication/Operation.cpp: Update", "src/Xsmp/Publication/Property.cpp: CreateGetRequest, CreateSetRequest"]}
{"id": "C69", "title": "Invoke runs an operation only with all its inputs", "statement": "Operation::Invoke hands a request created by the operation to the component exactly when every parameter that is not an output has been given an accepted value since the request was created; otherwise, or for a request of another operation, it throws. SetValue of a property hands only valid values to the component, and only if the property is writable.", "quantifier": "every operation, every history of calls on the request and every growth of the type registry", "why_tests_cant": "it relates the history of a request to the check done at invocation, for any number and directions of parameters", "anchors": ["src/Xsmp/Publication/Operation.cpp: Invoke", "src/Xsmp/Publication/Property.cpp: GetValue, SetValue", "src/Xsmp/Publication/Request.cpp: SetParameterValue"]}
{"id": "C70", "title": "Epoch and mission events follow their own clock", "statement": "An occurrence of an event posted (or moved) for a time of the epoch or mission clock is executed only while that clock has not passed the occurrence's time, and is skipped only when it has; as long as nobody sets the clocks, no occurrence is skipped.", "quantifier": "every history of posts, moves, clock settings, runs and holds, every cycle and repetition", "why_tests_cant": "whether the clock is moved forward over an occurrence depends on the interleaving of clock settings with the run loop", "anchors": ["src/Xsmp/Services/XsmpScheduler.cpp:Execute", "src/Xsmp/Services/XsmpScheduler.cpp:AddMissionTimeEvent", "src/Xsmp/Services/XsmpScheduler.cpp:AddEpochTimeEvent", "src/Xsmp/Services/XsmpTimeKeeper.cpp:SetEpochTime", "src/Xsmp/Services/XsmpTimeKeeper.cpp:SetMissionStartTime"]}
{"id": "C71", "title": "A run reaches every pending event", "statement": "When the simulation is started and nobody holds it, every pending event, however far in the future and however many cyclic events there are, is executed (or skipped because its clock has passed) after finitely many moves of the simulation thread, provided the entry points return and the waits end.", "quantifier": "every history before the start, every pending event and every fair schedule of the simulation thread", "why_tests_cant": "it is a liveness property over unbounded schedules", "anchors": ["src/Xsmp/Services/XsmpScheduler.cpp:_EnterExecuting", "src/Xsmp/Services/XsmpScheduler.cpp:ExecuteEvents", "src/Xsmp/Services/XsmpScheduler.cpp:ExecuteImmediateEvents"]}
{"id": "C72", "title": "Python indexes and loops see the items of a collection", "statement": "From Python, c[i] gives the item of a collection, array or parameter list that Python's rules give (counted from the start, or from the end for a negative index) and raises IndexError outside of it, and a for loop visits each item once, in order.", "quantifier": "every collection and every index", "why_tests_cant": "sizes and indexes are unbounded, and the arithmetic mixes signed and unsigned 64-bit numbers", "anchors": ["src/python/ecss_smp.cpp: GetIndex", "src/python/Smp/ICollectionBinding.h", "src/python/Smp/IArrayFieldBinding.h"]}
{"id": "C73", "title": "An operation called from Python reaches the component exactly when its arguments fit", "statement": "Calling an operation from Python with positional and keyword arguments hands one request to the component, with each argument converted in the parameter it was meant for, exactly when there are not too many arguments, every keyword names a parameter not given by position, every argument converts to a value its type accepts and every input is given; otherwise an exception is raised and the component is not called. The results come back as one attribute per returned value, each under its own name.", "quantifier": "every published operation, every list of arguments and keywords, every behaviour of the component", "why_tests_cant": "the combinations of positional and keyword arguments, types and directions are unbounded", "anchors": ["src/python/Smp/IOperationBinding.h: callOperation", "src/python/ecss_smp.cpp: convert, GetPythonName", "src/Xsmp/Publication/Operation.cpp: Invoke"]}
{"id": "C74", "title": "Values cross the Python boundary unchanged or are refused", "statement": "A value of any primitive kind read from Python and written back is the same value; a Python integer written to an integer kind is stored exactly or refused; copying one field into another of the same kind through Python preserves the value. A string is shown exactly when it is UTF-8, a character is written from one character up to U+00FF, a boolean from anything with a truth value, a number from a Python number that it can hold, and from nothing else.", "quantifier": "every value of every primitive kind and every Python value", "why_tests_cant": "the ranges of the kinds, the encodings of strings and the rounding of floating point numbers cannot be enumerated", "anchors": ["src/python/ecss_smp.cpp: convert"]}
{"id": "C75", "title": "isinstance in Python answers the interfaces of an object", "statement": "The Python class of an object is an instance of the class of an SMP interface exactly when the object implements that interface, and none of its bases is redundant.", "quantifier": "every object, that is every set of interfaces closed under the standard's inheritance", "why_tests_cant": "there are too many combinations of interfaces to test", "anchors": ["src/python/ecss_smp.cpp: IObjectHierarchy, process, polymorphic_type_hook"]}
{"id": "C76", "title": "The simulator finds its services", "statement": "GetLogger, GetScheduler, GetTimeKeeper, GetEventManager, GetResolver and GetLinkRegistry answer the first accepted service that implements the interface, for ever, and null before; AddService and AddModel accept a component exactly in Building, Connecting and Standby, with the simulator as parent and a name that no service or model has, and otherwise change nothing; GetService finds exactly the service of a name; the simulator never keeps a service that was deleted.", "quantifier": "every history of AddService, AddModel, state changes and uses of the two containers, every set of services and interfaces they implement", "why_tests_cant": "histories and sets of services are unbounded", "anchors": ["src/Xsmp/Simulator.cpp: AddService, AddModel, GetService, GetLogger", "src/Xsmp/Container.h: AddComponent, DeleteComponent"]}
{"id": "C77", "title": "Loaded libraries are finalised once, in reverse order", "statement": "When the simulator is destroyed, Finalise is called once for each library that LoadLibrary accepted, the last loaded first, and for no other library.", "quantifier": "every sequence of LoadLibrary calls, including those made by the Initialise and Finalise functions of the libraries, and every failure", "why_tests_cant": "libraries load libraries to any depth and may fail in several ways", "anchors": ["src/Xsmp/Simulator.cpp: LoadLibrary, ~Simulator"]}
{"id": "C78", "title": "Destroying a simulator ends the simulation properly", "statement": "Destroying a simulator that executes holds it and then exits; destroying it in Standby exits; the handlers of the global events see the documented sequence and the last state is Exiting; in the other states nothing happens.", "quantifier": "every history of the simulator and every behaviour of the user code that is called back during the destruction", "why_tests_cant": "the user code called during the destruction can call any command of the simulator", "anchors": ["src/Xsmp/Simulator.cpp: ~Simulator, Hold, Exit"]}
{"id": "C79", "title": "The global events announce the states of the simulator", "statement": "When the simulator enters a state that has an Enter event, this event is emitted before anything else happens; it leaves a state that has a Leave event only just after emitting it; each command shows the documented sequence of states and events and executes the initialisation entry points between EnterInitialising and LeaveInitialising.", "quantifier": "every history of commands, every nesting of commands called from handlers and entry points", "why_tests_cant": "handlers may call commands at any point of a transition", "anchors": ["src/Xsmp/Simulator.cpp: Connect, Initialise, Run, Hold, Store, Restore, Reconnect, Exit, Abort, EmitGlobalEvent"]}
{"id": "C80", "title": "Booleans, characters, strings and floating-point values of AnySimple are kept or refused", "statement": "A boolean, character, string or floating-point value stored in an AnySimple is read back unchanged, or the store or the read throws InvalidAnyType; an integer read as a floating-point number gives that number or throws; reading as a boolean tells whether the value is null.", "quantifier": "every kind, every value, every history of the object", "why_tests_cant": "single-precision and double-precision values cannot be enumerated", "anchors": ["src/Smp/AnySimple.cpp: SetValue, operator Bool, operator Char8, operator String8, operator Float32, operator Float64, convertFloat"]}
{"id": "C81", "title": "RemoveLinks removes every link to the target", "statement": "After RemoveLinks(target) on a component none of its event sources, references and fields is linked to the target or to one of its fields; all other links, and all values, are as before.", "quantifier": "every component, every nesting of its fields, every history of connections, every target", "why_tests_cant": "the links depend on the whole history of connections and on their order", "anchors": ["src/Xsmp/Component.cpp: RemoveLinks, RemoveFieldLinks, RemoveEventProviderLinks, RemoveAggregateLinks", "src/Xsmp/Field.cpp: InputFieldCollection"]}
{"id": "C82", "title": "The target speed stays between 0.01 and 100", "statement": "After SetTargetSpeed(s) GetTargetSpeed returns s when s lies between 0.01 and 100, and the nearer of these bounds otherwise.", "quantifier": "every sequence of calls and every double", "why_tests_cant": "the doubles cannot be enumerated; infinities, signed zeros, denormals and NaN take part in the comparisons", "anchors": ["src/Xsmp/Services/XsmpScheduler.cpp: SetTargetSpeed, GetTargetSpeed", "src/Xsmp/Services/XsmpScheduler.h: _targetSpeed"]}
{"id": "C83", "title": "The simulation keeps the pace of the Zulu clock", "statement": "While the simulator executes, the simulation time is never set before the Zulu time that corresponds to it at the target speed; a late simulation catches up and is on time again in the first step that has to wait; nothing of this is undefined for any accepted speed.", "quantifier": "every sequence of event times, every target speed and change of it, every time the user code takes, every reading of the clock", "why_tests_cant": "it depends on what the clock shows at each step of a run of any length, and on the rounding of doubles", "anchors": ["src/Xsmp/Services/XsmpScheduler.cpp: _EnterExecuting", "src/Xsmp/Services/XsmpTimeKeeper.cpp: GetZuluTime"]}
{"id": "C84", "title": "Names and descriptions own their text", "statement": "An Xsmp::cstring (which holds the name and description of every object) keeps its own copy of the text it was last given, whatever becomes of the buffer or object it was given; every allocation is freed exactly once, and an operation that throws leaves the object as it was.", "quantifier": "every sequence of constructions, copies, moves, assignments and destructions of any number of objects, every text, every failing allocation", "why_tests_cant": "aliasing and lifetimes depend on the whole history of the objects; undefined behaviour may stay unnoticed in a test", "anchors": ["src/Xsmp/cstring.cpp: copy, operator=, cstring, ~cstring", "include/Xsmp/cstring.h: c_str"]}
{"id": "C85", "title": "Running the simulation for a duration stops it exactly that duration later", "statement": "Run(duration), called while the simulator is in Standby, returns with the simulation time exactly that duration later and everything due until then executed, and does return when nothing else acts; a negative duration is refused; whatever interrupts the run, nothing of it is left behind for a later run.", "quantifier": "every history before the call, every duration, every history of calls and events during the run", "why_tests_cant": "it depends on all events pending and posted during the run and on their order within the last instant", "anchors": ["src/Xsmp/Simulator.cpp: Run, Hold, _holdImmediately", "src/python/Smp/ISimulatorBinding.h: Run", "src/Xsmp/Services/XsmpScheduler.cpp: AddSimulationTimeEvent, _EnterExecuting"]}
{"id": "C86", "title": "The duration given to Run in Python", "statement": "Run(nanoseconds=..., ..., weeks=...) in Python posts the end of the run for exactly the sum of the arguments, whole or fractional, rounded to the nearest nanosecond; a sum that is not a representable duration is refused.", "quantifier": "every eight doubles", "why_tests_cant": "doubles cannot be enumerated and eight of them are combined, each step with its own rounding", "anchors": ["src/python/Smp/ISimulatorBinding.h: Run"]}
{"id": "C87", "title": "Published structures and arrays give access to their own memory", "statement": "A field published for a registered type gives access to exactly the memory of the C++ object: every simple field inside it lies in the object and shares no byte with another; SetValue changes only its own field and GetValue gives back the last value accepted, whatever else was set meanwhile; SetValues and GetValues do so for all items of a simple array or for none; Store and Restore bring back the state fields and nothing else.", "quantifier": "every registry a history of calls can create, every type in it that describes a C++ type, every nesting of arrays and structures, every address, every history of calls", "why_tests_cant": "types nest to any depth and width, and the memory of one field may be changed by a call on any other", "anchors": ["src/Xsmp/Publication/Field.cpp: Create, SimpleField, SimpleArrayField, ArrayField, StructureField", "src/Xsmp/Publication/Type.cpp: ArrayType, StructureType", "src/Xsmp/Helper.cpp: CopyString"]}
{"id": "C88", "title": "Fields are published under one name, found under it, and gone after Unpublish", "statement": "The fields of a publication are exactly those whose publication was accepted since the last Unpublish, each under the name and type given. A publication is accepted exactly when its name is valid, a field of that type can be made and no field of the publication has the name; a refused one changes nothing. GetField with the path of a field, through structures and arrays, returns that field; it never returns anything else, and throws for a name that is not published. GetPath leads back to the field. A published field stays where it is until Unpublish, which removes everything inside the publication and nothing outside it.", "quantifier": "every history of PublishField, PublishArray, PublishStructure and Unpublish calls on a component and on the anonymous arrays and structures inside it, every registry, every path", "why_tests_cant": "histories nest publications in publications without bound, and what a path finds depends on all the calls before", "anchors": ["src/Xsmp/Publication/Publication.cpp: PublishField, PublishArray, PublishStructure, GetField, GetFields, Unpublish", "src/Xsmp/Publication/Field.cpp: AnonymousArrayField, AnonymousStructureField, AnonymousSimpleArrayField", "include/Xsmp/Collection.h: DelegateCollection", "src/Xsmp/Helper.cpp: Resolve, GetPath"]}
{"id": "C89", "title": "Arithmetic on fields", "statement": "++, --, and the compound assignments on a field (or an item of an array field) give it the result of the operator on its value: the exact one when its type can hold it, otherwise its low bits; floating point results are the nearest values of the type. A forced field keeps its value, and connected fields take the new value.", "quantifier": "every integer and floating point type of the field and of the operand, every operator, every two values, every network of connected fields", "why_tests_cant": "the promotions and conversions of C++ depend on both types, and the values cannot be enumerated", "anchors": ["include/Xsmp/Field.h: SimpleField::operator++, operator--, operator+=, operator-=, operator*=, operator/=, operator%=, operator<<=, operator>>=, operator&=, operator|=, operator^=, SetValue", "include/Xsmp/Field.h: SimpleArrayField::protected_reference"]}
{"id": "C90", "title": "The link registry used by several threads", "statement": "When several threads call AddLink, RemoveLink, GetLinkCount and GetLinkSources, the answers are those of some order of the calls made one at a time, in which a call that returned before another began comes first; in particular, once all calls have returned, the sources of a target are the components that have links to it. Every call returns.", "quantifier": "every number of threads, every sequence of calls of each, every interleaving of their critical sections (fewer than 2^32 calls)", "why_tests_cant": "schedules cannot be enumerated, and a window between two critical sections is not met by running", "anchors": ["src/Xsmp/Services/XsmpLinkRegistry.cpp: AddLink, RemoveLink, GetLinkCount, GetLinkSources", "src/Xsmp/ThreadSafeData.h: ThreadSafeData, ReadLock, WriteLock"]}
{"id": "C91", "title": "The event manager used by several threads", "statement": "When several threads call QueryEventId, Subscribe, Unsubscribe and Emit, the answers, and the entry points that Emit executes, are those of some order of the calls made one at a time, in which a call that returned before another began comes first: the same identifier is returned exactly for the same name, and an identifier that was returned can be used at once. Every call returns, including those made by the entry points.", "quantifier": "every number of threads, every sequence of calls of each (also from entry points executed by Emit), every interleaving of their critical sections", "why_tests_cant": "schedules cannot be enumerated, and a window between two critical sections is not met by running", "anchors": ["src/Xsmp/Services/XsmpEventManager.cpp: QueryEventId, GetEventName, Subscribe, Unsubscribe, Emit", "src/Xsmp/ThreadSafeData.h: ThreadSafeData, ReadLock, WriteLock"]}
{"id": "C92", "title": "The time keeper used by several threads", "statement": "While any number of threads read the simulation, epoch and mission times and set the epoch time, the mission start and the mission time, and one thread at a time moves the simulation time, every time returned is that of some order of the calls made one at a time, in which a call that returned before another began comes first; in particular no thread sees a simulation time that is smaller than one seen before, nor an epoch or mission time computed from values that never held together. Every call returns.", "quantifier": "every number of threads, every sequence of calls of each, every interleaving of the acquisitions and releases of the three locks, every order in which a compiler evaluates the operands, every policy of the mutexes between readers and writers", "why_tests_cant": "schedules cannot be enumerated; the order of evaluation and the policy of the mutexes are those of other platforms than the one the tests run on", "anchors": ["src/Xsmp/Services/XsmpTimeKeeper.cpp: GetSimulationTime, GetEpochTime, GetMissionTime, SetEpochTime, SetMissionTime, SetSimulationTime, Store, Restore", "src/Xsmp/ThreadSafeData.h: ThreadSafeData, ReadLock, WriteLock"]}
{"id": "C93", "title": "Texts of durations and date-times", "statement": "The text of a Duration is its sign, hours, minutes, seconds and nanoseconds, and that of a DateTime the Gregorian calendar date and the time of day, counted from 2000-01-01 12:00:00. Two different values never have the same text, and the texts of date-times sort as the date-times.", "quantifier": "all 2^64 values of Duration and DateTime", "why_tests_cant": "the values cannot be enumerated; calendars go wrong at single days", "anchors": ["src/Xsmp/Duration.cpp: operator<<", "src/Xsmp/DateTime.cpp: operator<<, to_time_point", "include/Xsmp/Duration.h", "include/Xsmp/DateTime.h"]}
{"id": "C94", "title": "Texts of values and of messages", "statement": "Inserting an AnySimple in a stream writes its value and its kind: integers exactly in decimal, floating point values as the best decimal number of six digits, characters as C literals, so that the value can be told from the text. Enumerations are written by the names of their literals and Uuids in their canonical form. A message is made of the texts of its parts, each written as if it were alone. Writing leaves the format of the stream as it was.", "quantifier": "every AnySimple, every value of every enumeration type, every Uuid, every message, every format of the stream", "why_tests_cant": "values, and sequences of insertions that change the format of the same stream, cannot be enumerated", "anchors": ["src/Smp/StreamOperators.cpp: operator<<", "include/Xsmp/Exception.h: FormatString"]}
{"id": "C95", "title": "Exceptions", "statement": "An exception of the library has the name of its class, the object that threw it, and a message that is the sentence of its class with the texts of the arguments it was thrown with, null pointers included; what() gives name, description and message. Its getters give back the arguments they are named after, for as long as the exception is kept.", "quantifier": "all 49 ways of throwing an exception, all arguments, every later state of the objects", "why_tests_cant": "the getters are called after the objects may have changed or gone; the arguments cannot be enumerated", "anchors": ["src/Xsmp/Exception.cpp", "include/Xsmp/Exception.h: throwFieldAlreadyConnected ... throwIncompatibleType, FormatString"]}
{"id": "C96", "title": "Run and Hold from several threads", "statement": "A Hold(true) that is accepted while the simulation executes, whichever thread calls it, ends the run: the loop executes at most the event it had chosen, the call of Run returns, and there is never more than one run loop. Once all calls have returned the simulator is in Standby.", "quantifier": "every number of threads, every sequence of calls of Run and Hold(true) of each, every interleaving of their accesses to the shared state, also with calls made by the executed events", "why_tests_cant": "schedules cannot be enumerated; the windows are a few instructions wide", "anchors": ["src/Xsmp/Simulator.cpp: Run, Hold, EmitGlobalEvent", "src/Xsmp/Services/XsmpScheduler.cpp: _EnterExecuting, _LeaveExecuting, ExecuteEvents, ExecuteImmediateEvents"]}
{"id": "C97", "title": "The thread of the Zulu events", "statement": "An event posted or moved to a Zulu time is executed when the clock reaches that time: the thread that executes these events never sleeps while one is due, and when it wakes it executes all that are due, in the order of their times. When the scheduler is disconnected no further event is started, the thread is woken and ends, so that Disconnect returns.", "quantifier": "every sequence of posting, moving and removing events, disconnecting, notifications, spurious wake-ups and moves of the clock, interleaved with the thread at every point where it does not own the mutex", "why_tests_cant": "lost wake-ups and wrong deadlines show only in particular interleavings, and tests cannot wait for all of them", "anchors": ["src/Xsmp/Services/XsmpScheduler.cpp: InternalZuluRun, AddZuluTimeEvent, SetEventZuluTime, RemoveEvent, ExecuteZulu, DoConnect, DoDisconnect"]}
{"id": "C98", "title": "Arguments of events", "statement": "When sources and sinks are constructed with the kind of their type, Emit(v) calls every sink that is subscribed at that moment, once, and no other, with the value v (a string of bounded length receives as many characters as it has room for). Only sinks of the kind of the source can be subscribed. With other kinds an integer is received exactly as emitted or Emit throws, and then the sinks that come later have not been notified.", "quantifier": "every type and kind of source and sinks, every history of Subscribe, Unsubscribe and Emit, every value", "why_tests_cant": "types, kinds and values of the arguments and histories cannot be enumerated", "anchors": ["include/Xsmp/EventSource.h: EventSource::Emit", "include/Xsmp/EventSink.h: EventSink::Notify", "src/Xsmp/EventSource.cpp: Subscribe, Unsubscribe, DoEmit", "src/Xsmp/EventSink.cpp: EventSink<void>::Notify", "include/Xsmp/AnySimpleConverter.h"]}
{"id": "C99", "title": "Simple array fields", "statement": "SetValue(index, value) of a simple array field replaces exactly that item or throws and changes nothing. SetValues accepts as many values as there are items, writes them in order and stops with an exception at the first one of another kind (an array published with a count: the first one that cannot be converted), what was written before staying written. GetValue and GetValues give the items with their kind, and GetValues gives back what SetValues accepted. Whatever is called, every field and every item stays a value of its type and no array changes its size.", "quantifier": "all arrays, indexes and values; all histories of writes, assignments, forces, restores, pushes, connections and disconnections of all kinds of fields", "why_tests_cant": "values, sizes and histories cannot be enumerated", "anchors": ["include/Xsmp/Field.h: ArrayField GetValue, SetValue, GetValues, SetValues", "src/Xsmp/Publication/Field.cpp: SimpleArrayField and AnonymousSimpleArrayField, GetValue, SetValue, GetValues, SetValues"]}
{"id": "C100", "title": "Xsmp::Array", "statement": "at(k) gives item k, or throws out_of_range exactly when k is not below the size; operator[], front, back and the reverse iterators give the same items; assigning an item changes no other. fill sets all items; swap exchanges the contents of two arrays, also of an array with itself. ==, !=, <, >, <= and >= are equality of all items and the lexicographic order, also for arrays of arrays, whenever the operators of the items are those of an order.", "quantifier": "all item types, sizes, contents and indexes", "why_tests_cant": "types, sizes and contents cannot be enumerated; the laws relate several calls", "anchors": ["include/Xsmp/Array.h: Array"]}
{"id": "C101", "title": "The appenders of the logger", "statement": "The appenders of the logger are those of the names listed by log.rootLogger in XsmpLogger.properties, in that order, or one on the console when there is no list. Each writes to the console or to its own file as its class says, with the levels, layout and path filter configured under its own name; everything that cannot be used is reported and nothing else is. The console shows, entry by entry and appender by appender, what the console appenders write, and a file contains what its appender writes, complete and in order.", "quantifier": "every properties file (any lines), every matching function of regular expressions, every sequence of log entries", "why_tests_cant": "configurations and histories of entries cannot be enumerated, and the order and completeness of several outputs relate all calls", "anchors": ["src/Xsmp/Services/XsmpLogger.cpp: Appender, ConsoleAppender, FileAppender, LoggerProcessor, parseProperties, CreateAppender"]}
{"id": "C102", "title": "Breakpoints on disk", "statement": "Once Store has returned, Restore from that directory brings the whole state back, whatever is stored elsewhere, restored, run, failed or killed in between, until the next Store into it. When the process dies during a Store, or a directory, a file or the device fails, the breakpoints of the other directories are untouched, and that of this directory is the former one, the new one, or refused with CannotRestore: Restore never returns with a mixture. A Store or Restore that cannot be completed says so and leaves the simulation usable.", "quantifier": "every tree of components and fields, every state, every history of Store, Restore, runs, restarts and deaths, every point of death, every failure of directories, files and devices, every way in which the stream buffers", "why_tests_cant": "crash points, full devices and buffering cannot be enumerated by tests, which store small states on healthy disks", "anchors": ["src/Xsmp/Simulator.cpp: Store, Restore", "src/Xsmp/StorageWriter.cpp: createOutputStream, Store", "src/Xsmp/StorageReader.cpp: createInputStream, Restore"]}
{"id": "C103", "title": "Deleting components", "statement": "DeleteComponent destroys the component and everything inside it, each exactly once, takes it out of its container, keeps the other components of the container in their order and changes no other container; or it throws and the component is still there. Afterwards no container or reference leads to a destroyed component. Components end in a fixed order: a component first, then what its containers hold, the last declared container and the last added component first. All this whatever the components do when they are disconnected and destroyed.", "quantifier": "every tree of containers and components, every bound, every growth of the vectors, every program of calls run by Disconnect and by the destructors (reacting to the answers), every history of AddComponent and DeleteComponent", "why_tests_cant": "the code that runs in the middle of a deletion is written by users; the call orders that invalidate an iterator cannot be enumerated", "anchors": ["include/Xsmp/Container.h: Container::DeleteComponent, ~Container, AddComponent", "src/Xsmp/Container.cpp: AbstractContainer::DeleteComponent, AddComponent", "src/Xsmp/Component.cpp: Disconnect", "include/Xsmp/Reference.h: Reference::AddComponent, RemoveComponent, GetComponent"]}
{"id": "C104", "title": "Type hints", "statement": "generate_python_type_hints writes, for every simulator, a file that Python can read: a class for the simulator and, nested in it as the objects are, a class and an attribute for every component, field and field of a structure field and for nothing else, with attributes for references, containers, event sources and sinks, properties and entry points and functions for the operations; the bases of each class are interfaces that the object implements, and cover all of them.", "quantifier": "every tree of components and fields, every set of interfaces, names, descriptions, and state of publication", "why_tests_cant": "the trees, names and combinations of interfaces cannot be enumerated", "anchors": ["src/python/Smp/ISimulatorBinding.h: generate, generatePythonTypeHints", "python/xsmp/unittest.py: TestCase.generateTypeHints", "src/Xsmp/Component.cpp: GetFields, GetOperations, GetProperties"]}
{"id": "C105", "title": "Strings, their own parts and streams", "statement": "Calls of a String<N> that are given a part of the string itself (its substr, its own text or the string itself) have the effect they have with a copy of that part: assign and assignment make the part the text, append adds it, cut at the capacity, and a position beyond the end is refused and changes nothing. Concatenation with operator+ gives both texts and never cuts. A string that is written to a stream and read back is the same, cut at the capacity of the string that reads; at the end of the stream the string is emptied and the stream says so. (False of the code: assign with a part that overlaps the beginning of the string is undefined; strings with blanks are not read back.)", "quantifier": "every capacity, every content of the array, every text, part and position, every sequence of calls, every text around the one that is read", "why_tests_cant": "whether source and destination overlap depends on lengths and positions; an overlapping memcpy gives the expected result in most runs", "anchors": ["include/Xsmp/String.h: String::assign, append, substr, operator=, operator+=, operator+, operator<<, operator>>"]}
{"id": "C106", "title": "Values by name from Python", "statement": "In Python, o.name = z and o[name] = z with an integer store exactly z in the field or property that the name (or path) names when its type has the value, its enumeration has the literal and it may be written; otherwise they raise an exception. o.name op= n means o.name = o.name op n on unbounded integers, so that overflow is refused and never wraps around, and expressions with any number of elements and operators mean the same on their integers. Nothing but the named element changes, a statement that raises changes nothing, and a name that names no field or property gives AttributeError (KeyError by index). A field assigned from another gets its value; an object may be assigned to its own name. What was assigned is read back by every name of the element. (False of the code: an element with the name of a method can be written by attribute but not read.)", "quantifier": "every tree of objects, every state, object, name and path, every integer and operator, every sequence of statements, including those that fail", "why_tests_cant": "names, types, values and histories combine without bound, and that nothing else changes is a claim about every other element", "anchors": ["src/python/Smp/IObjectBinding.h: SetValue, __getattr__, __setattr__, __getitem__, __setitem__", "src/python/Smp/ISimpleFieldBinding.h: operators, GetValue", "src/python/Smp/IPropertyBinding.h: operators, GetValue", "src/Xsmp/Publication/Property.cpp: SetValue", "src/Xsmp/Publication/Field.cpp: SetValue"]}
{"id": "C107", "title": "References from Python", "statement": "In Python a reference is changed as a list is: r += c adds the component at the end, r -= c takes its first occurrence away, del r[i] the component at the index and del r[name] the first one of that name, the others stay in their order. Statements that the bounds, the type, the index or the name forbid raise the exception for that and change nothing; the reference never exceeds Upper, and no statement takes it below Lower. (False of the code: when a component is in the reference several times, del r[i] takes the first of them, not the one at i; negative indexes are always refused.)", "quantifier": "every content, bounds, type and names, every statement and every sequence of statements, including those that fail", "why_tests_cant": "contents, bounds and histories combine without bound; that the remaining components keep their order concerns all of them", "anchors": ["src/python/Smp/IReferenceBinding.h: __iadd__, __isub__, __delitem__", "include/Xsmp/Reference.h: AddComponent, RemoveComponent", "src/python/ecss_smp.cpp: GetIndex"]}
{"id": "C108", "title": "Simple arrays from Python", "statement": "In Python, a[j] = p with a value of the item type of a simple array field makes exactly the item j that value; a[j] is then p and all other items, and everything else, are as before. Values that the type does not have and indexes that are negative or not below the size raise an exception and change nothing. A loop that assigns every item leaves exactly the values assigned, and the list of the items read is the array. (False of the code: no item of an array made by PublishArray with a count can be assigned.)", "quantifier": "every state, array, size, index and value, every list of values", "why_tests_cant": "sizes, indexes and values are unbounded, and that nothing else changes is a claim about every other item and field", "anchors": ["src/python/Smp/ISimpleArrayFieldBinding.h: __len__, __getitem__, __setitem__", "src/python/ecss_smp.cpp: GetIndex, convert", "src/Xsmp/Publication/Field.cpp: SimpleArrayField::GetValue, SetValue", "include/Xsmp/Field.h: GetValue, SetValue", "src/Xsmp/Publication/Publication.cpp: PublishArray"]}
