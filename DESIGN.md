# Formal model of xsmp-sdk: design

The source in /repo was read as text; it was neither built nor run.  The model
is a hand translation into Gallina, function by function; every definition
cites the lines it models and says what it simplifies.

## Conventions

* Integers are `Z`; a 64-bit bound or a wrap-around is written explicitly where
  the property is about it.  Lengths are `nat`.
* Byte strings are lists of `Z`/`N` codes.
* `std::map`/`std::set` are sorted association lists, so iteration order is the
  order of the C++ container.
* C++ exceptions are explicit outcomes; undefined behaviour (dangling iterator,
  out-of-bounds access, signed overflow) is a distinct outcome.
* Entry points and handlers are arbitrary: either labels of an adversarial
  environment in a small-step machine, or arbitrary functions/scripts.
* A property that is false of the code is kept in full in properties.jsonl;
  the model has a `..._refuted` theorem with a concrete witness, and a
  `..._partial` theorem for the part that does hold.

## Plan per property

| id | property | model and proof |
|---|---|---|
| C01 | Simulation time never runs backwards | SchedModel small-step machine; invariant over all label sequences. |
| C02 | Events fire exactly at their scheduled simulation time | Same machine; consistency invariant between the time table and the event records; ghost trace. |
| C03 | First scheduled, first executed at one instant | Same machine; batches are id-sorted; trace order inside an instant. |
| C04 | Repeat count and cycle are exact | Same machine; ghost counters per event; invariant next = t0 + k*c and remaining repeats. |
| C05 | A removed event is never executed again | Same machine; refuted for immediate events (witness), proved under the stated discipline. |
| C06 | Event identifiers are unique | Same machine; ids below the last id. |
| C07 | Invalid posts are rejected without effect | Call by call theorems on the machine's API function; invariant for the cycle rule (refuted through SetEventCycleTime). |
| C08 | No pending event is jumped over | Same machine, TimeKeeper check included. |
| C09 | Hold stops promptly and loses nothing | Same machine: hold label at any point; resumption keeps the remaining batch. |
| C10 | Scheduler calls are safe at any moment | UB and escaping exceptions are outcomes of the machine; refuted with traces; proved under a call discipline. |
| C11 | Scheduler state survives Store/Restore | Store/Restore of the scheduler state; Zulu table omitted (refuted), other kinds proved. |
| C12 | Simulation and Zulu execution never deadlock | Two-thread lock-step model of Execute/ExecuteZulu; deadlock trace (refuted). |
| C13 | Zulu events are executed once due, in order | Zulu part of the scheduler model; RemoveEvent wrong-table witness. |
| C14 | Epoch and mission time follow simulation time | TimeKeeper record + commands; induction over histories. |
| C15 | Simulation time is only changed inside the change window | TimeKeeper machine with window flag. |
| C16 | Simulator follows the SMP state machine | Simulator machine with re-entrant handlers as scripts; allowed-transition relation. |
| C17 | State commands out of state are ignored | Per command, per state theorem. |
| C18 | Abort is final | Simulator machine; refuted (Abort inside Connect), proved for non nested use. |
| C19 | Initialisation entry points run exactly once, in order | Init entry point list with swap. |
| C20 | Event names and identifiers are in bijection | EventManager machine, induction over histories. |
| C21 | Emit notifies exactly the current subscribers in order | Emit over a snapshot, arbitrary reentrant handlers. |
| C22 | Event manager state survives Store/Restore | Store/Restore of names and subscriptions. |
| C23 | Link counts are exact | LinkRegistry machine refined to a counting function over the history. |
| C24 | Link sources are complete | Same; equal-name witness (refuted), distinct names proved. |
| C25 | Containers respect their bounds and unique names | Container machine. |
| C26 | References respect their bounds | Reference machine. |
| C27 | Object names obey the SMP grammar | checkName as a byte automaton, against an inductive grammar. |
| C28 | GetPath and Resolve are inverse | Object trees, GetPath, Resolve. |
| C29 | Relative paths are interpreted step by step | Resolve composition, field witness (refuted). |
| C30 | CopyString never overruns and always terminates | Buffer model with explicit out-of-bounds writes. |
| C31 | Integer conversions preserve the value or throw | Integer kinds with ranges; SetValue and conversion operators. |
| C32 | AnySimple equality is an equivalence | operator== of AnySimple on non-float kinds; refuted for symmetry. |
| C33 | UUID text form round-trips | Parser and printer over byte lists. |
| C34 | UUID order is a strict total order compatible with equality | Lexicographic order on the fields. |
| C35 | Fixed strings stay within capacity | Buffer of N+1 bytes with UB outcome. |
| C36 | Fixed string comparison is lexicographic | compare on contents. |
| C37 | Persist round-trips every supported type | Universe of types, encode/decode; induction on types. |
| C38 | Truncated or foreign storage is detected | decode on arbitrary byte strings. |
| C39 | Forced fields keep their value | Field machine. |
| C40 | Connected inputs follow their outputs | Dataflow graph of fields, push with fuel / well-founded order; refuted for array items and cycles. |
| C41 | Dataflow connections are validated | Connect/Disconnect model on nested fields. |
| C42 | State fields round-trip through Store/Restore | Field tree codec. |
| C43 | Request parameters are validated and indexed consistently | Request model. |
| C44 | Request marshalling round-trips | Marshalling on nested types. |
| C45 | Type registry is a consistent, append-only map | Registry machine. |
| C46 | Enumeration fields only hold declared literals | Field set value model; refuted for arrays. |
| C47 | Log kinds are stable | Kind list. |
| C48 | Every log message is delivered exactly once in order | Producer/consumer small-step machine. |
| C49 | Component life cycle is respected | Life-cycle machine. |
| C50 | Factories are unique by UUID | Factory collection machine. |
| C51 | Event sources notify each subscribed sink once | Event source machine; reentrancy is UB (refuted), otherwise proved. |
| C52 | Duration and DateTime conversions are exact | Integer arithmetic with overflow excluded explicitly. |
| C53 | Logger configuration text is parsed faithfully | Byte-list functions. |
| C54 | Type equivalence is an equivalence relation | Type trees. |
| C55 | A fallible model is failed exactly when one of its failures is | Failure list. |
| C56 | Collections look up what was added | Collection machine. |
| C57 | RemoveLinks asks every linking source | Sources that do not touch the registry; refuted, with the exact skipping pattern, when each source removes its own link. |
| C58 | CanRemove tells whether all links can be removed | Sources with distinct names; refuted otherwise. |
| C59 | The simulator rests between commands | No exception from user code; refuted by a throwing Store. |
| C60 | A deferred hold concerns the current run only | Takes effect: always. A stale deferred hold stops a later run (refuted). |
| C61 | IsAncestor answers whether an object is on the parent chain | Loop of IsAncestor over an arbitrary finite parent chain. |
| C62 | Strings in AnySimple have one owner | False in two cases (C62_own_string_refuted: setting an object to the string it already holds; C62_no_memory_refuted: allocation failure in copy assignment). Proved for all other histories: one owner, no double free, no leak, independent copies. |
| C63 | The simulator takes every component through its life | In-order/at-most-once proved for all histories. Completeness fails for a component added to a container the walk is going through, and Reconnect(root) does not visit root; proved when nobody adds siblings during the walk. |
| C64 | Each hook of a generated component is called once | DoPublish and DoConnect are called once. Refuted: DoConfigure is called twice (ComponentHelper.h:52), DoDisconnect is called before the state check. |
| C65 | Durations compare with chrono durations by length | Consistency proved for every period; exactness for whole-nanosecond periods; refuted for finer periods (the chrono value is truncated first). |
| C66 | No logger configuration makes logging undefined | Proved for configurations with a known layout name and a well formed pattern; refuted for the others (null layout, read beyond the pattern). std::regex is not modelled (any predicate on paths). |
| C67 | The component tree is restored as it was stored | For components whose own Store and Restore round-trip; markers do not identify the tree (C67_foreign_tree_accepted). |
| C68 | A component has one operation or property per name, and CreateRequest finds it | Model ReqModel.v. Names are C strings. |
| C69 | Invoke runs an operation only with all its inputs | Model ReqModel.v. The component's own Invoke is a parameter. |
| C70 | Epoch and mission events follow their own clock | SchedClock/SchedClockProps: an invariant ties the time of an event on its clock to the instant of its occurrence; three theorems over every disciplined history. |
| C71 | A run reaches every pending event | SchedLive/SchedLiveProps: lexicographic measure (instants left, work left at the instant) decreasing at each own move of the simulation thread; theorem for every fair schedule. Signed overflow of a cycle addition is the only other outcome. API calls by other threads during these moves are out of scope of the theorem. |
| C72 | Python indexes and loops see the items of a collection | Indexes from the start and loops proved; every index counted from the end raises IndexError because GetIndex compares the index as given, not the corrected one, with the size: C72_negative_index_refuted. |
| C73 | An operation called from Python reaches the component exactly when its arguments fit | Proved for operations described with C strings, fewer than 2^31 parameters and keyword names without NUL; Python guarantees that keywords are different. pybind11 conversions are modelled, not proved. |
| C74 | Values cross the Python boundary unchanged or are refused | Proved for integers, booleans, Float64, canonical Float32, UTF-8 strings without NUL and all characters; the refutation lists the values that do not survive. What Python objects each kind accepts is proved too; the casts themselves are those of pybind11, modelled from its documentation. |
| C75 | isinstance in Python answers the interfaces of an object | Proved for every interface but IFactory and ICollection, which the hierarchy of ecss_smp.cpp leaves out although their Python classes exist. |
| C76 | The simulator finds its services | Refuted: deleting a standard service through the Services container leaves the simulator with a pointer to it; partial: true for the services that are never deleted. |
| C77 | Loaded libraries are finalised once, in reverse order | Proved when Finalise loads no library (Initialise may, to any depth); refuted when Finalise calls LoadLibrary: the destructor then finalises a library twice and forgets another. |
| C78 | Destroying a simulator ends the simulation properly | From Standby: Exiting for every user code that does not call Abort. From Executing: exact trace if the user code only returns; refuted with a handler of EnterStandby that calls Initialise and then Run: the destroyed simulator stays in Executing. |
| C79 | The global events announce the states of the simulator | Refuted: Reconnect never emits LeaveReconnecting. Partial: all other states, as long as Abort is not called in the middle of a transition. |
| C80 | Booleans, characters, strings and floating-point values of AnySimple are kept or refused | Booleans, characters and strings are kept exactly or refused, whatever the object held before; floating-point values are kept by their own kind, a single-precision value also through the double kind, and a double that is exactly a single-precision value is accepted by the single kind and kept (C80_float_kept_partial). Not true in general: the check compares the absolute difference with 2^-52, so small doubles are accepted and changed (C80_float_kept_refuted); C80_double_stored gives the exact condition and shows that a nearest single-precision value is stored, so an accepted double changes by at most 2^-52 (1 + 2^-53). The largest integers read as floating point are undefined behaviour (C80_read_float_refuted). |
| C81 | RemoveLinks removes every link to the target | The sinks and references of the target are all removed; for the fields the exact remainder is proved (the input following a removed one is skipped), all is removed when no two neighbouring inputs are of the target, and other links and values are kept. Refuted in general: neighbouring inputs, outputs inside an output, published outputs. |
| C82 | The target speed stays between 0.01 and 100 | Proved for every double except NaN, and after any sequence of calls; refuted for NaN, which is accepted and makes the next computation of the delay undefined. |
| C83 | The simulation keeps the pace of the Zulu clock | Never early up to 1 ns per step and a relative 2^-50 (rounding of doubles), late runs catch up up to the same bounds plus the time between the two readings of the clock, and every step is defined for a step of up to a year at any accepted speed and for all times at the initial speed. Refuted: a wait for the end of time below speed 1 is undefined, the time between the two readings accumulates as drift, a clock set back lengthens the wait. |
| C84 | Names and descriptions own their text | Proved for programs that take no text from null, unterminated or moved-from sources, give no object its own c_str() and whose assignments can allocate; each of the excluded cases is refuted. |
| C85 | Running the simulation for a duration stops it exactly that duration later | When Run(d) returns, the time is t0+d, everything due has been executed, its event is gone and the simulation is on hold; the time is never beyond before; it returns after finitely many fair rounds. Any disciplined history before, any calls during the run as long as nobody else holds or starts the simulation, touches the event of the run or sets the time after it. A deferred hold that takes place is used up and does not affect the next run. Refuted: interrupted by another Hold(true), Run leaves a pending event that names a destroyed local entry point; a deferred hold that did not happen stops the next run at once. |
| C86 | The duration given to Run in Python | Exact for whole numbers (any signs) below 2^53 ns in total, and within a relative 2^-47 (rounded down) for any lengths up to 2^62 ns; with C85 the simulation stops exactly then. Refuted: rounding to the nearest nanosecond, whole numbers beyond 2^53 ns, refusal of what is not a duration. Not covered by the approximate theorem: positive arguments below 2^-840 and fractional arguments of mixed signs. Contraction of a*b+c into one rounding is not modelled. |
| C87 | Published structures and arrays give access to their own memory | Proved for every registry a history of calls creates and every type in it that describes a C++ type (members inside the object and disjoint, items adjacent): placement, disjointness, histories of SetValue, SetValues/GetValues, Store/Restore. Refuted: SetValues is not all or nothing; item sizes, offsets and string lengths are not checked at registration. |
| C88 | Fields are published under one name, found under it, and gone after Unpublish | Content, acceptance, additions, persistence and Unpublish are proved for all histories. False in general: a raw field may be created under the name of a field given before (C88_unique_refuted), so that uniqueness, GetField and GetPath are proved for histories without that; the publication of an anonymous structure answers null instead of throwing and follows no path (C88_structure_refuted); the index of an item of an anonymous array changes when a created field follows a given one (C88_item_moves_refuted); GetPath of such an item leads nowhere or to another field (C88_path_refuted). The acceptance clause is proved as the code has it: a created field is only compared with created fields. Not modelled: fields given that another publication also holds, views, descriptions. |
| C89 | Arithmetic on fields | Proved for all integer types, operators and operands; for Float64 and Float32 with operands that convert without loss and results that do not overflow. False in general: a product of two UInt16 values can be undefined (C89_uint16_product_refuted); a negative value and an unsigned operand of 32 bits or more do not give the mathematical quotient (C89_mixed_signs_refuted); the operators compute before they look whether the field is forced, so a forced field does not protect from a division by zero (C89_forced_refuted); a Float32 field with a double operand is rounded twice (C89_single_double_refuted). Propagation has the conditions of C40. Integer fields with floating point operands are not modelled. |
| C90 | The link registry used by several threads | proved for any number of threads and schedules: counts and RemoveLink answers, termination; GetLinkSources only when no RemoveLink overlaps an AddLink of the pair or a GetLinkSources of the target (refuted otherwise) and the sources of a target have different names. Readers serialised, collection read at the instant it is found, fewer than 2^32 calls. |
| C91 | The event manager used by several threads | proved for any schedule, except that a call that uses a new event while its first query is in progress may be refused (refuted otherwise). Store and Restore are not concurrent. |
| C92 | The time keeper used by several threads | linearizable for every schedule, order of evaluation and mutex policy when the calls that move the simulation time do not overlap (refuted otherwise); every call returns for (any order, readers first, no Restore), (left to right, any policy, no Store or Restore), (left to right, readers first), and deadlocks are exhibited outside these. Unbounded integers; Restore succeeds; emitted events not modelled. |
| C93 | Texts of durations and date-times | Proved: the text of every duration but the smallest and of every date-time that has one, against an independent definition of the calendar (days counted one by one from 2000-01-01); injectivity; order of date-times. Refuted: the smallest duration and late date-times have no text (undefined behaviour); texts of durations sort only from 0 to 100 hours. |
| C94 | Texts of values and of messages | Proved: integers, ASCII characters, the texts of booleans, infinities and NaN, floating point values (best approximation with six digits, integers below 10^6 exact), kinds and values identified from the text outside floats and strings, exactly which values have no text, enumerations, Uuids on every stream, messages. Refuted: non-ASCII characters are no C literal, strings may look like durations, floats not identified, null String8 undefined, the format of the stream is changed, other bases change the text. |
| C95 | Exceptions | Proved: name, sender, what, message against a table of templates, description per class, exactly when making the exception is undefined or replaced by std::bad_typeid, getters and their absence. Partial: getters that give the name of an object need the object alive. Refuted: every rejection can be thrown (cycle time -2^63 ns); names of destroyed objects. |
| C96 | Run and Hold from several threads | Proved for every number of threads and every interleaving: Standby once all calls have returned; a hold taken while the loop runs ends it after at most one event (no other thread calls Run). Refuted: a hold accepted before the loop has begun is lost for ever; two loops at once. |
| C97 | The thread of the Zulu events | ZulModel, ZulProps: interleavings of InternalZuluRun with posting, moving, removing, disconnecting, notifications, spurious wake-ups and the clock. Refuted: an event posted for an earlier time than the one the thread waits for is executed late; partial: without such events the thread never sleeps while an event is due. Execution in order of all that is due, and the end after Disconnect, are proved without that restriction. One clock; events about to be executed are not removed here (C13 has removal). |
| C98 | Arguments of events | ArgModel: typed sources and sinks with the conversions of AnyModel. The functions of the sinks do not call the source nor throw here (C51 has those). |
| C99 | Simple array fields | typed and published simple array fields; a published array converts values of other kinds, to floating point items possibly with undefined behaviour (C99_set_item says when); C99_typed covers every operation of FlowModel. |
| C100 | Xsmp::Array | items with any operators == and <; refuted for floating point items with NaN (C100_nan_refuted, C100_nan_order_refuted), proved for those without (C100_items with C100_compare). |
| C101 | The appenders of the logger | Proved of the configuration read from any lines and of any sequence of entries; std::regex is a parameter. The claim about files is proved for a file used by one appender (C101_file_partial); two appenders on one file write over each other (C101_file_refuted). What an appender writes for an entry is the subject of C53 and C66. |
| C102 | Breakpoints on disk | Not proved because false of the code: that a breakpoint is complete when Store returns (bytes lost when the stream is closed are not reported), that the former breakpoint is kept until the new one is there, that it is complete when LeaveStoring is emitted, and that a Restore that fails changes nothing (refuted). A death loses what the stream had not handed over to the operating system; directories that have been created stay (deletion by others and power failures are not modelled). |
| C103 | Deleting components | Proved for user code in which every component calls only the containers of its own (creating and deleting children to any depth, reacting to the answers) and whose destructors do not throw; order proved when user code does nothing; a deleted component is disconnected, and no other one when user code does nothing; deletions end when user code creates nothing. Refuted: a component that deletes a sibling in front of it or creates one in the middle of its deletion, a destructor that adds to a container being destroyed, and references, which keep destroyed components. |
| C104 | Type hints | Model HintModel.v, with a grammar of the Python statements used. Proved: the file is Python and describes exactly the objects when all names are Python identifiers and the descriptions can be quoted; it is written exactly when all components have been published. Refuted: names that the library allows but Python does not (in, [0]) and descriptions with quotes at the end make the file unreadable; a component that has not been published leads to a null pointer. |
| C105 | Strings, their own parts and streams | append and += with any part of the string itself are right for every part; s = part too; assign with a part of the string is proved defined exactly when the part does not overlap what it replaces, refuted otherwise; concatenation proved; streams proved for non-empty texts without blanks, refuted with blanks. Streams with a width or an earlier error are not modelled. |
| C106 | Values by name from Python | Model AttrModel.v. Integers, scripts of assignments, compound assignments and expressions, values of every kind that Python can show, copies between fields, exceptions and the frame are proved for every tree and state; that what is assigned is read back is refuted for elements named as a method of the Python class and proved otherwise. Operators on values that are no integers, and the container, reference, collection and array classes, which define __getitem__ anew, are left out. |
| C107 | References from Python | Model RefPyModel.v on CollModel.v. Every statement but del r[i] proved for every content; del r[i] proved for references without repeated components (histories included), its exact effect proved otherwise, refuted as the list operation it looks like. The specification is proved to determine the result. |
| C108 | Simple arrays from Python | Model ArrPyModel.v on FArrModel.v and PyModel.v. Proved for all simple array fields but those of PublishArray with a count and a kind, whose type is no array type and whose items can therefore not be assigned in Python (refuted). Refusals and the frame are proved for all. |

## What is modelled, file by file

The line ranges are those cited by the comments of the model.  A file of /repo
that is not in the table is not modelled (tests, examples, generated test
components, docs, build files).

| file of /repo | cited lines | in | left out |
|---|---|---|---|
| include/Xsmp/AnySimpleConverter.h | 27-76 | FlowModel, HelperModel |  |
| include/Xsmp/Array.h | 82-85, 89-94, 120-173, 198-211, 220-227, 237-247, 305-308, 315-318, 325-329, 336-339, 349-352, 363-366 | ArrayModel | iterators other than the order in which they give the items; noexcept specifications and the deduction guide |
| include/Xsmp/Collection.h | 44-55, 61-63, 67, 75-79, 83-104, 108-126, 161-172, 211-220, 237, 263-266, 272-277, 281-283, 287-289 | CollModel, LinkModel, PlaceModel, PubModel, ReqModel, TypeModel |  |
| include/Xsmp/Component.h | whole classes | CmpModel |  |
| include/Xsmp/ComponentHelper.h | 47-83, 105-113 | CmpModel, DelModel |  |
| include/Xsmp/Container.h | 212-214, 227-233, 241-261, 275-283, 294-306 | CollModel, DelModel, PathModel |  |
| include/Xsmp/DateTime.h | 184-230, 238-244, 248-257 | CalModel, TimeModel |  |
| include/Xsmp/Duration.h | 42-46, 58-65, 91-95, 164-284, 295-333 | TimeModel |  |
| include/Xsmp/EventSink.h | 52-156 | ArgModel |  |
| include/Xsmp/EventSource.h | 78-172 | ArgModel |  |
| include/Xsmp/Exception.h | 58-62 | OutModel | template wrappers that compute the name of a type |
| include/Xsmp/Field.h | 153-156, 208-262, 286-299, 389-394, 428-453, 480-529, 600-615, 730, 766-822, 842-894, 991, 1149-1162 | ArithModel, BrkModel, FArrModel, FieldStoreModel, FlowModel, PathModel, ReqModel, UnlinkModel | constructors and conversion operators of fields; integer fields with floating point operands, Bool and Char8 fields with arithmetic |
| include/Xsmp/Helper.h | 96-103, 186-204 | FlowModel, HelperProps |  |
| include/Xsmp/Persist.h | 76-89, 102-105, 119-122, 158-162, 180-193 | PersistModel, SchedStoreModel |  |
| include/Xsmp/Persist/SmpIObject.h | 29-32 | PersistModel, SchedStoreModel |  |
| include/Xsmp/Persist/StdArray.h | 24-30 | PersistModel |  |
| include/Xsmp/Persist/StdAtomic.h | 25-30 | PersistModel |  |
| include/Xsmp/Persist/StdMap.h | 27-36 | PersistModel |  |
| include/Xsmp/Persist/StdPair.h | 24-28 | PersistModel |  |
| include/Xsmp/Persist/StdSet.h | 25-32 | PersistModel |  |
| include/Xsmp/Persist/StdString.h | 29-47 | PersistModel |  |
| include/Xsmp/Persist/StdUnorderedMap.h | whole classes | PersistModel |  |
| include/Xsmp/Persist/StdUnorderedSet.h | whole classes | PersistModel |  |
| include/Xsmp/Persist/StdVector.h | 26-48 | LogKindModel, PersistModel |  |
| include/Xsmp/Reference.h | 212-217, 231-242, 252-262, 432-444 | CollModel, DelModel |  |
| include/Xsmp/Request.h | 57-91, 99-129, 148-160 | ReqModel |  |
| include/Xsmp/String.h | 47, 51-59, 127-142, 169-185, 315-325, 331-333, 338-345, 355, 362-365, 374-490, 498-501, 510-533 | FlowModel, HelperModel, OwnModel, StringModel | iterators and the parts of std::string_view it forwards to |
| include/Xsmp/cstring.h | 42 | CstrModel | nothing |
| src-gen/Xsmp/Tests/ModelWithOperationsGen.cpp | 59-214 | CmpModel |  |
| src/Smp/AnySimple.cpp | 27-32, 36-86, 90-1039, 1043-1103 | AnyHeapModel, AnyModel |  |
| src/Smp/StreamOperators.cpp | 33-266 | OutModel, UuidModel | precision, sign and alignment flags of streams; the sign of a NaN |
| src/Smp/Uuid.cpp | 27-77, 82-107, 114-129 | UuidModel |  |
| src/Smp/utility.h | 67-110 | AnyModel |  |
| src/Xsmp/Component.cpp | 50-99, 116-122, 127-204 | CmpModel, CollModel, DelModel, HintModel, LinkProps, PathModel, UnlinkModel | constructor and getters of name, description, parent |
| src/Xsmp/Container.cpp | 58-80, 95-198 | CmpModel, CollModel, DelModel, HostModel |  |
| src/Xsmp/DateTime.cpp | 54-76 | CalModel, OutModel | the parser of dates (external date library) and the constructors from parts |
| src/Xsmp/Duration.cpp | 49-71 | CalModel, OutModel | the parser of durations (external date library) |
| src/Xsmp/EntryPoint.cpp | none |  | an entry point is an arbitrary piece of user code |
| src/Xsmp/EventSink.cpp | 46-66 | ArgModel | names, descriptions and parents of the sinks |
| src/Xsmp/EventSource.cpp | 46-108 | ArgModel, SinkModel |  |
| src/Xsmp/Exception.cpp | 1364-1366 | ExcModel, OutModel | throwException with a name given by the caller; demangling of type names (Helper.cpp:440-455) |
| src/Xsmp/Factory.cpp | 39-50 | FacModel |  |
| src/Xsmp/FactoryCollection.cpp | 32-68 | FacModel |  |
| src/Xsmp/FallibleModel.cpp | 23-31 | FacModel |  |
| src/Xsmp/Field.cpp | 40-54, 59-314, 336-354, 359-363, 368-382, 386, 394-404, 413-415, 426-428, 434-445, 450-457, 465-475, 486-488, 493-503, 514-524, 531-539, 543-551, 568-576 | BrkModel, FacModel, FieldStoreModel, FlowModel, UnlinkModel |  |
| src/Xsmp/Helper.cpp | 55-290, 294-419, 449-572 | ExcModel, HelperModel, PathModel, PlaceModel, PubModel, SchedModel, SimModel, UnlinkModel |  |
| src/Xsmp/LibraryHelper.cpp | none |  | dlopen/dlsym: HostModel takes their outcome as a parameter |
| src/Xsmp/Publication/Field.cpp | 39-66, 73-75, 87-292, 334-400, 404-433, 447, 462-476, 491-501, 505-631, 641-700, 706-835 | AttrModel, BrkModel, FArrModel, FieldStoreModel, FieldStoreSpec, FlowModel, HelperModel, PathModel, PlaceModel, PubModel, TypeModel |  |
| src/Xsmp/Publication/Field.h | 102 | PlaceModel, UnlinkModel |  |
| src/Xsmp/Publication/Operation.cpp | 37-42, 72-106, 128-182, 186-192 | ReqModel |  |
| src/Xsmp/Publication/Property.cpp | 33-80, 103-121, 153-186 | AttrModel, ReqModel |  |
| src/Xsmp/Publication/Publication.cpp | 38-43, 48-230, 242-273, 286-291 | ArrPyModel, CollModel, PubModel, ReqModel | views and descriptions of fields, DeleteRequest |
| src/Xsmp/Publication/Publication.h | whole classes | PubModel |  |
| src/Xsmp/Publication/Request.cpp | 34-133, 144-180 | ReqModel |  |
| src/Xsmp/Publication/Request.h | whole classes | ReqModel |  |
| src/Xsmp/Publication/Type.cpp | 28-31, 37-39, 53-72, 80-99, 106-116, 173-180, 188-211 | HelperModel, TypeModel |  |
| src/Xsmp/Publication/Type.h | 32-222 | HelperModel, TypeModel |  |
| src/Xsmp/Publication/TypeRegistry.cpp | 30-397, 412-478 | PubModel, TypeModel |  |
| src/Xsmp/Publication/TypeRegistry.h | whole classes | TypeModel |  |
| src/Xsmp/Request.cpp | 29-40, 66-173 | ReqModel |  |
| src/Xsmp/Services/XsmpEventManager.cpp | 40-197, 201-215 | ConcModel, EventModel |  |
| src/Xsmp/Services/XsmpEventManager.h | whole classes | EventModel |  |
| src/Xsmp/Services/XsmpLinkRegistry.cpp | 24-120 | ConcModel, LinkModel |  |
| src/Xsmp/Services/XsmpLinkRegistry.h | whole classes | LinkModel |  |
| src/Xsmp/Services/XsmpLogger.cpp | 55-151, 182-185, 199-257, 263-351, 355-357, 365-488, 496-514, 518-543, 559-617 | AppModel, LogKindModel, LogQueueModel, LogTextModel | std::regex (any matching function), buffering and errors of the file streams, the file system; the text of the date in a message |
| src/Xsmp/Services/XsmpLogger.h | whole classes | LogKindModel |  |
| src/Xsmp/Services/XsmpResolver.cpp | none |  | forwards to Helper.cpp, which is modelled |
| src/Xsmp/Services/XsmpScheduler.cpp | 46-66, 71-82, 88-177, 203-261, 289-314, 345-378, 385-473, 514-665 | LockModel, PaceModel, ParModel, SchedModel, SchedRefuted, SchedSpec, SchedStoreModel, TimedModel, ZulModel | the speed samples and their moving average (630-633, 672-697), which nobody reads; condition variables (their guarantees are hypotheses or labels); thread creation is a label of the machine |
| src/Xsmp/Services/XsmpScheduler.h | 389-391, 416 | PaceModel, SchedModel, SchedStoreModel |  |
| src/Xsmp/Services/XsmpTimeKeeper.cpp | 40-107 | ClockModel, SchedModel, SchedStoreModel |  |
| src/Xsmp/Services/XsmpTimeKeeper.h | 138-141 | ClockModel, SchedModel |  |
| src/Xsmp/Simulator.cpp | 57-62, 66-74, 79-149, 165-228, 233-254, 271-656, 666-730 | BrkModel, CmpModel, FacModel, FieldStoreModel, HostModel, ParModel, SchedStoreModel, SimModel, TimedModel | dlopen (parameter), the random UUIDs of the factories |
| src/Xsmp/Simulator.h | 397-402 | HostModel, SimModel |  |
| src/Xsmp/StorageReader.cpp | 28-66 | BrkModel, FieldStoreModel, PersistModel |  |
| src/Xsmp/StorageWriter.cpp | 32-45, 53-63 | BrkModel, FieldStoreModel, PersistModel |  |
| src/Xsmp/ThreadSafeData.h | 78-85 | ClockModel, ConcModel | the locks as the boundaries of atomic sections (C90, C91) and as shared mutexes taken one at a time (C92); the classes themselves are not modelled |
| src/Xsmp/cstring.cpp | 22-40, 52-68 | CstrModel | nothing |
| src/python/Smp/IArrayFieldBinding.h | 29-36 | PyModel |  |
| src/python/Smp/ICollectionBinding.h | 46-53 | PyModel |  |
| src/python/Smp/IContainerBinding.h | 40-48 | PyModel |  |
| src/python/Smp/IObjectBinding.h | 26-51, 56-73 | AttrModel |  |
| src/python/Smp/IOperationBinding.h | 30-99 | PyModel |  |
| src/python/Smp/IPropertyBinding.h | 37-41 | AttrModel |  |
| src/python/Smp/IReferenceBinding.h | 40-48, 95-111 | PyModel, RefPyModel |  |
| src/python/Smp/ISimpleArrayFieldBinding.h | 30-52 | ArrPyModel |  |
| src/python/Smp/ISimpleFieldBinding.h | 33-39, 83-172 | AttrModel |  |
| src/python/Smp/ISimulatorBinding.h | 80-290 | DurModel, HintModel, TimedModel |  |
| src/python/ecss_smp.cpp | 197-297, 304-343, 426-559 | HintSpec, PyModel | pybind11 itself; the registration of the classes other than their hierarchy |

## Trusted base

1. **Coq's kernel.**  Coq 8.16.1 (`coqc`), with every kernel check on: no flag
   besides `-Q theories Verif`, no plugin, no `Unset ... Checking`, no
   `bypass_check`.  `vm_compute` is used for examples and closed computations,
   so its virtual machine is trusted too; `native_compute` is not used.
2. **Coq's standard library.**  No other library is imported.  No axiom is used
   by any theorem: `Print Assumptions` answers *Closed under the global
   context* for each theorem of MANIFEST.json (table below).  The standard
   library files that are loaded declare `Coq.ssr.ssrunder.Under_rel.`
   `{Over_rel, Under_rel_from_rel, over_rel, over_rel_done, Under_rel,
   Under_relE, under_rel_done}` (fields of a module type of the library, which a
   checker of the whole environment lists); no theorem rests on them.  There are
   no axioms, parameters or admitted proofs in /verif.
3. **The reading of the source.**  The model is a hand translation.  Nothing
   links it to the C++ text but the comments, the examples, and the seeded bugs
   of seeded/LOG.jsonl, which show that the theorems notice edits of the model.
4. **What is outside /repo.**  The SMP standard headers (ISmp), the C++
   standard library, pybind11, the YAML/JSON and date libraries and the
   operating system are represented by what their documentation says.  In
   particular: `std::map` iterates in key order; `std::vector` iterators are
   invalidated by insertion and erasure; threads interleave at the operations
   on mutexes and atomics (sequential consistency); floating-point numbers are
   the IEEE 754 binary32 and binary64 of Coq's SpecFloat; `long` and pointers
   have 64 bits.
5. **User code.**  Entry points, event handlers, component hooks, storage
   files and configurations are universally quantified, or labels of an
   adversarial environment.  Where a theorem asks something of them, the
   hypothesis is in its statement.

## How the theorems were tested

seeded/LOG.jsonl has one line per seeded bug: the definition edited, the edit,
the claim it breaks, the theorems that no longer go through, and the theorems
tightened because the edit first went unnoticed.  An edit that breaks a lemma
makes every theorem whose proof uses the lemma fail; such a theorem is listed
although its own statement may still be true.  Lines whose
`theorems_failed` is empty are either followed by a line "run again after
tightening", or carry a remark saying why the edit is not a bug.

## Findings: where the code does not do what a user expects

Each has a `_refuted` theorem or is a stated exception of a `_partial` theorem,
unless marked (read), which means it was only seen while reading.

Scheduler and time keeper
* The Zulu table is not stored by Store; after Restore Zulu events are lost (C11).
* RemoveEvent of a Zulu event erases its key from the table of simulation time (XsmpScheduler.cpp:362) (C13).
* The simulation thread holding `_eventsMutex` waits for `_execMutex` while a Zulu entry point runs: deadlock (C12).
* A hold during the change of time leaves the time-change window open, and the window is not stored (C10, C15).
* Removing or rescheduling events from inside an entry point can leave a dangling iterator (C05, C10).
* Run(duration) uses an entry point on the stack, which a later event may name (C85).

Simulator and components
* Reconnect never emits LeaveReconnecting (C79); Reconnect(root) skips root (C63); siblings added during the walk are skipped (C63).
* Abort inside Connect is undone by the end of Connect (C18).
* A failed Store or Restore leaves the simulator in Storing or Restoring (C59).
* A stale deferred hold stops a later run (C60).
* Component::RemoveLinks skips the input that follows a removed one, does not look at outputs inside an output, and never unlinks published outputs: a later push writes into a deleted component (C81).
* DoConfigure is called twice (ComponentHelper.h:52); DoDisconnect is called before the state is checked (C64).
* Once a composite component has been published, AddComponent to its containers always throws: the search for a field of the same name throws InvalidFieldName when there is none (C25).
* GetService(nullptr), and LoadLibrary(nullptr) with a logger, are undefined behaviour (C76, C77).
* Deleting a standard service through the Services container leaves a dangling pointer (C76).
* A Finalise that loads a library makes the destructor finalise a library twice and forget another (C77); a failed LoadLibrary never closes its handle (read).
* A handler of EnterStandby that calls Initialise and Run keeps a destroyed simulator executing (C78).
* Store empties the file of the former breakpoint before it writes the new one; a process that dies in between has neither (C102).
* The file is closed after SMP_LeaveStoring and SMP_EnterStandby have been emitted, by a destructor that ignores errors: subscribers find an incomplete file, and bytes a full device refuses at that moment are lost although Store returns (C102).
* A directory that cannot be created is reported with std::filesystem::filesystem_error, not CannotStore; a Restore that fails leaves a partly restored simulation (C102).
* DeleteComponent keeps an iterator into its vector while Disconnect and the destructor of the component run: one that deletes a sibling in front of it, or adds one so that the vector grows, makes the erasure undefined. A component added by a destructor while its container is destroyed makes ~Container destroy a component twice (C103).
* A deleted component stays in every reference that holds it. GetComponent and RemoveComponent of the reference apply a dynamic_cast to it, so that the stale entry cannot even be removed (C103).
* simulator.bin does not identify the tree it was stored from; a short read overwrites memory before it throws (C67, C38).

Fields and dataflow
* A failed Force un-forces the field (C39); a failed Connect of arrays of different kinds leaves the link (C41).
* Nested structures in output structures are never connectable (C41); strings of different length are "equivalent" and truncated (C54).
* AreEquivalent ignores the item kinds of simple arrays (C54).
* Enumeration checks exist only for simple published fields of 4 bytes (C46); a push into a published enumeration terminates the program (C40).
* SetValues stops midway, leaving earlier items written; SimpleArrayField does not push on SetValue, SetValues and fill (C40, C99).
* A cyclic dataflow overflows the stack (C40).

Timed runs
* If another Hold(true) interrupts Run(duration), the event of the run stays pending and names an entry point that was a local variable of Run: the next run executes a destroyed object (C85).
* A Hold(true) in the same instant after Hold(false) leaves the deferred hold subscribed: the next run returns before the time has advanced (C85).
* If no event is left, the run returns although the simulator is still in state Executing; the Run of the Python binding then waits for ever (read).

Pace
* SetTargetSpeed(NaN) is accepted and makes the next step undefined behaviour (C82).
* At a target speed of 1 or less a simulation left without events converts a number too large for a Duration: undefined behaviour instead of a hold at the end of time (C83).
* The time between the two readings of the clock in a step is lost for good, so a run drifts (C83); the clock is the settable system clock, so that setting it back by an hour stops the simulation for an hour (C83).

AnySimple, text, time
* A failed SetValue loses a string; SetValue with the string the object holds is a use after free; bad_alloc in copy assignment leaves a wild pointer; self-move empties (C31, C62).
* INT32_MAX read as Float32, and INT64_MAX or UINT64_MAX as Float64, are undefined behaviour (C80).
* Small doubles are accepted into Float32 and changed, 2^-1000 becomes 0 (C80); operator== is not an equivalence (C32).
* CopyString documents another result than it returns (C30).
* String::assign with a part of the string itself that overlaps its beginning, as in s.assign(s.substr(1)), and s.assign(s) are undefined (memcpy of overlapping ranges), while s = s.substr(1), append and += are not (C105). Reading a string at the end of a stream empties it (C105).
* From Python, o.GetName = 5 writes a field called GetName, while o.GetName is the method: only o["GetName"] reads the field (C106). ISimpleField and IProperty define __nq__ where __ne__ is meant; this has no effect, as Python derives != from __eq__.
* del ref[i] in Python removes the first occurrence of the component that is at i, so that with a component referenced twice another position is lost; del ref[-1] always raises (C107).
* a[j] = v in Python always raises ValueError for the arrays of PublishArray(name, description, count, address, kind, ...), because their type is the type of the items; a[-1] raises too (C108).
* Arrays with NaN among their items are <= and >= each other without being ==, and < of such arrays is not transitive (C100).
* DateTime::operator=(chrono::duration) does not compile (read); dates after 2262 overflow; literals from 2^63 on are negative; comparisons with periods below the nanosecond truncate (C52, C65).

Storage
* Wide strings lose data; a typed Restore accepts a signature that is a prefix; a failed Restore leaves a half restored value; typeid differs for polymorphic types (C37, C38).

Logger
* A failed Restore loses the predefined kinds; restoring an older breakpoint reassigns kinds (C47).
* An unknown layout is a null dereference; a pattern ending in '%' or an unterminated '{' is read past its end (C66).

Types and requests
* A structure may contain itself; publishing it does not end (C45); the fields of a base class are not published (C45).
* NaN passes the range checks; a negative string length accepts every string (C43).
* An item size smaller than the items and members that overlap are accepted, and SetValue of one field then changes another; a string type of negative length copies texts of any length over the memory that follows; SetValues stops at the first value refused and keeps those already written (C87).
* Compound assignments compute in C++'s promoted types: UInt16 products may overflow int, and the result is computed, and may be undefined, even when the field is forced (C89).
* The proxy of an item of a connectable array cannot be read: its conversion operators return the item as the whole array type, which does not compile when used (Field.h:836-840) (read).
* A publication creates a field under the name of a field that was given to it before: GetFields then has two fields with that name, and GetField, which found the one given, finds the other (C88).
* GetField on the publication of an anonymous structure returns null where IPublication says InvalidFieldName, and does not follow paths; GetPath of an item of an anonymous array omits the array and leads nowhere, or to another field; given fields come after created ones, so that items change index (C88).
* Operations with array or structure parameters can never be invoked; duplicate names of structure fields break the index of a request; the request of a property setter answers index 0 for every name (C43, C44, C68, C69).

Names and descriptions
* Xsmp::cstring frees its block before it reads the new text: publishing an operation or property again with the description it already has reads freed memory; an assignment whose allocation fails leaves a dangling address that the destructor frees again (C84).
* A null description is undefined behaviour, as is copying a cstring that was moved from; moving one to itself loses its text (C84).

Python
* Every negative index raises IndexError (C72); `__nq__` is a typo for `__ne__` (read).
* Factories and collections are seen as plain objects (C75).
* Strings with NUL are cut, a null String8 cannot be written back, strings that are not UTF-8 cannot be read (C74); keyword names are cut at NUL (C73).
* Run(seconds=1.001) runs 1000999999 ns: the duration is truncated, not rounded; beyond 104 days whole numbers are rounded; infinity, not a number and durations of 2^63 ns and more are undefined behaviour instead of an error (C86).
* generate_python_type_hints uses the null pointer that GetFields, GetOperations and GetProperties return for a component that has not been published: undefined behaviour (C104).
* Names that SMP allows and Python does not, such as in, class or [0], make the file with the type hints unreadable; so do descriptions that end with a quote or hold three quotes (C104), or a backslash (read).
* The names in the file of type hints are not made unique: of a field and a component of the same name only the later one is seen (read).

Threads
* RemoveLink unlocks the links before it removes the source from the collection of the target: an AddLink of the same pair in between throws DuplicateName, and afterwards the pair has a link while the target has no source, so that RemoveLinks never asks it to remove the link (C90). Until then the count is 0 while the source is still listed (C90).
* GetLinkSources returns the live collection, which other threads modify without a lock held by the reader (read).
* QueryEventId publishes the new name before its identifier is known to Subscribe, Unsubscribe and Emit: a thread that asks for the same name at that moment gets an identifier that is refused as invalid (C91).
* GetEventName returns a reference into the map of names after unlocking it; Restore clears that map, and iterates over the events without the lock, because `_events.read()` in the range of the loop is a temporary that is gone before the first turn (XsmpEventManager.cpp:205-209) (read).
* SetSimulationTime compares with the current time and changes it under two separate locks: two threads that call it in the window may move the simulation time backwards (C92).
* XsmpTimeKeeper::Restore takes three write locks in the order in which the compiler evaluates its arguments. GCC evaluates arguments from right to left: a thread that calls GetEpochTime or GetMissionTime during a Restore, which the class documents as safe, can block for ever together with the Restore (C92).
* With mutexes that let a waiting writer go before new readers (std::shared_mutex promises nothing), Store, SetMissionTime and SetEpochTime can block each other, because Store takes the mission start before the epoch; so can GetEpochTime, SetEpochTime and SetSimulationTime if the operands of the subtraction are evaluated from right to left (C92).
* A Hold(true) of another thread that is accepted between `_state = SSK_Executing` and the start of the run loop is lost: the loop sets its status back to Running. The simulator is then in Standby while it executes, so that every later Hold is refused and nothing but a second Run can end the run (C96).
* Hold(true) of another thread returns, with the simulator in Standby, before the run loop has ended: a Run called then starts a second loop, and sets the status so that the first one goes on as well (C96). `_state` and `_lastGlobalEventId` are plain variables: these accesses are data races (read).
* The Zulu thread waits until the time of the event that was the first one when the wait began. An event posted, or moved, to an earlier time wakes it, but as it is not due yet the thread sleeps again until the old time: the event is late by up to the difference (C97).
* Two file appenders on one file (also two without `.File`, which both use simulator.log) open it separately and write over each other's text (C101). An empty name in the list (`a,,b`) is looked up as `log.appender.` and reported as missing (C101).

Texts
* Writing the smallest Duration computes its absolute value, which overflows; writing a DateTime later than 9223372036854775807 - 946728000000000000 ns overflows in the conversion to the system clock (C93).
* The texts of durations sort as the durations only from 0 to 100 hours (C93).
* A Char8 that is not ASCII is written with the eleven octal digits of its sign-extended value, which is no C literal (C94). Strings are written without escapes, so that a String8 may have the text of a Duration (C94). A null String8 is undefined behaviour (C94).
* Floating point values are written with six digits, so different values may have the same text (C94).
* Writing a Bool switches boolalpha off, writing some characters or a Uuid sets the base to decimal, and a Uuid sets the fill character to a blank, whatever they were before; on a stream in hexadecimal base the integers are written in that base, with nothing that says so (C94).
* When the text cannot be parsed, Duration(string) returns a variable that was never initialised (Duration.cpp:31-35), and DateTime(string) returns 1970-01-01 (read).
* The message of InvalidSimulationTime writes the times as numbers of nanoseconds, the other messages as texts of durations; that of InvalidEventSink and EventSinkAlreadySubscribed says that the source is subscribed to the sink (read).
* A rejection may itself be undefined: InvalidCycleTime of a cycle of -2^63 ns, and the exceptions that print a null String8, the smallest Duration or a late DateTime (C95).
* The type of a null object is asked with typeid: AddComponent(nullptr) of a container or reference throws std::bad_typeid instead of InvalidObjectType (C95).
* GetContainerName, GetReferenceName, GetOperationName and GetOldName ask the object for its name when they are called: undefined behaviour once it is destroyed, while all other getters keep a copy (C95).
* throwInvalidArrayIndex(IObject*, UInt64, UInt64) is declared and never defined; InvalidEventTime of a Zulu time prints the date-times as durations (read).

### Print Assumptions, theorem by theorem

Obtained by running `Print Assumptions` on every theorem of MANIFEST.json.

| module | Print Assumptions | theorems |
|---|---|---|
| AnyCloseProps | Closed under the global context | C32_float32, C32_float64, C32_float_reflexive, C32_float_symmetric, C32_mixed_floats, C80_double_stored |
| AnyHeapProps | Closed under the global context | C62_copy_partial, C62_independent_partial, C62_move, C62_no_leak_partial, C62_no_memory_refuted, C62_own_string_refuted, C62_owned_once_partial, C62_set_string_partial |
| AnyOtherProps | Closed under the global context | C80_bool, C80_char, C80_float_kept_partial, C80_float_kept_refuted, C80_float_other, C80_float_same, C80_new, C80_read_bool, C80_read_float, C80_read_float_refuted, C80_read_float_times, C80_string |
| AnyProps | Closed under the global context | C31_failed_store, C31_reachable, C31_read, C31_read_other, C31_round_trip, C31_store, C31_store_float32, C31_store_float32_fits, C31_store_float64, C31_store_float64_fits, C31_store_float_overflow, C31_store_other, C32_defined_refuted, C32_different, C32_equal_values_partial, C32_reflexive_partial, C32_reflexive_refuted, C32_symmetric_partial, C32_symmetric_refuted, C32_transitive_partial, C32_transitive_refuted |
| AppProps | Closed under the global context | C101_console, C101_default, C101_defined, C101_file_partial, C101_file_refuted, C101_reports, C101_selected |
| ArgProps | Closed under the global context | C98_delivered, C98_failed, C98_integers, C98_same_kind |
| ArithProps | Closed under the global context | C89_decrement, C89_double, C89_exact, C89_field_partial, C89_float_field_partial, C89_forced_partial, C89_forced_refuted, C89_increment, C89_item_partial, C89_mixed_signs_refuted, C89_shown_unique, C89_single, C89_single_double, C89_single_double_refuted, C89_step, C89_uint16_product_refuted, C89_undefined_signed, C89_undefined_small, C89_undefined_unsigned, C89_wraps |
| ArrPyProps | Closed under the global context | C108_anonymous, C108_anonymous_refuted, C108_integers_partial, C108_loops_partial, C108_outside, C108_read, C108_refused, C108_set_partial |
| ArrayProps | Closed under the global context | C100_access, C100_assign, C100_compare, C100_fill_swap, C100_items, C100_nan_order_refuted, C100_nan_refuted |
| AttrProps | Closed under the global context | C106_by_path, C106_copy, C106_frame, C106_integers, C106_method_names_refuted, C106_missing, C106_read_back_partial, C106_same_object, C106_scripts, C106_values |
| BrkProps | Closed under the global context | C102_complete_at_leave_refuted, C102_death, C102_directories, C102_failed_restore_partial, C102_failed_restore_refuted, C102_failure, C102_former_kept_refuted, C102_kept_partial, C102_kept_refuted, C102_reports, C102_stuck, C102_unbuffered |
| CalProps | Closed under the global context | C93_calendar, C93_date_injective, C93_date_order, C93_date_partial, C93_date_refuted, C93_duration_injective, C93_duration_order_partial, C93_duration_order_refuted, C93_duration_partial, C93_duration_refuted |
| ClockProps | Closed under the global context | C92_backwards_refuted, C92_calls_return_all_partial, C92_calls_return_ordered_partial, C92_calls_return_partial, C92_order_partial, C92_restore_refuted, C92_store_refuted, C92_writers_first_refuted |
| CmpProps | Closed under the global context | C49_accepted, C49_next, C49_order, C49_publication_and_simulator, C49_refused, C49_unchanged, C63_all_reached_partial, C63_all_reached_refuted, C63_created, C63_in_order, C63_no_exception, C63_reconnect_root_refuted, C64_configure_disconnect_partial, C64_configure_twice_refuted, C64_disconnect_refused_refuted, C64_publish_connect_once |
| CollProps | Closed under the global context | C25_add_after_publish_refuted, C25_add_iff, C25_content, C25_delete_iff, C25_failed, C25_lower, C25_names, C25_no_dangling, C25_published_takes_none, C25_upper, C26_content, C26_failed, C26_lower, C26_outcomes, C26_unlink, C26_unlink_below_lower, C26_upper, C56_at_index, C56_at_name, C56_at_name_duplicates, C56_delegate, C56_delegate_growth_hides, C56_delegate_unique, C56_duplicate_iff, C56_failed, C56_unique |
| ConcProps | Closed under the global context | C90_calls_return, C90_counts, C90_removal_refuted, C90_sources_partial, C90_sources_refuted, C91_calls_return, C91_identifiers, C91_order_partial, C91_order_refuted, C91_unhurried_partial |
| CstrProps | Closed under the global context | C84_failed_assignment_refuted, C84_failed_construction, C84_freed_once_partial, C84_moved_from_refuted, C84_own_copy_partial, C84_own_text_refuted |
| DelProps | Closed under the global context | C103_container_refuted, C103_delete_partial, C103_disconnected, C103_histories_partial, C103_new_sibling_refuted, C103_order, C103_references_partial, C103_references_refuted, C103_returns, C103_sibling_refuted |
| DurProps | Closed under the global context | C86_close_partial, C86_long_run_refuted, C86_nearest_nanosecond_refuted, C86_stops_when_asked_partial, C86_too_long_refuted, C86_whole_units |
| EventProps | Closed under the global context | C20_every_name_is_answered, C20_names_and_ids_are_in_bijection, C20_predefined_ids, C21_acceptance, C21_emit_completes, C21_emit_notifies_the_subscribers_of_the_call, C21_subscribed_at_most_once, C22_identity_when_idle, C22_restored_manager_behaves_as_stored |
| ExcProps | Closed under the global context | C95_description, C95_getters, C95_getters_exactly, C95_names_partial, C95_names_refuted, C95_rejections_refuted, C95_replaced_exactly, C95_text, C95_undefined_exactly |
| FArrProps | Closed under the global context | C99_anonymous, C99_get, C99_round_trip, C99_set_item, C99_set_values, C99_typed |
| FacProps | Closed under the global context | C50_alive_partial, C50_by_uuid, C50_create, C50_order, C50_register_iff, C50_rejected_partial, C50_rejected_refuted, C50_unique, C55_is_failed, C55_names, C55_no_effect, C55_store_restore |
| FieldStoreProps | Closed under the global context | C42_round_trip, C42_stores_state_only, C42_transient, C42_truncated, C67_foreign_tree_accepted, C67_tree_round_trip, C67_truncated, C67_wrong_marker |
| FlowHandProps | Closed under the global context | C41_hands_on_tree_partial |
| FlowProps | Closed under the global context | C39_failed_force_partial, C39_failed_force_refuted, C39_force, C39_forced_value_kept, C39_freeze, C39_restore, C39_unforce, C39_unforce_keeps_value, C40_array_interfaces_refuted, C40_array_item_partial, C40_array_push_partial, C40_assignment_propagates_partial, C40_enumeration_refuted, C40_loop_never_returns, C40_loop_refuted, C40_published_push_partial, C40_push_partial, C40_set_value_propagates_partial, C40_string_refuted, C41_accepted_partial, C41_disconnect, C41_failed_connect_refuted, C41_hands_on_partial, C41_linked_once, C41_links, C41_nested_structure_refuted, C41_published_accepted_partial, C41_published_links, C41_published_rejected, C41_rejected_unchanged, C46_array_items_refuted, C46_only_literals_partial, C46_other_sizes_refuted, C46_published_literals_partial, C46_typed_fields_refuted |
| HelperProps | Closed under the global context | C27_names_are_the_grammar, C27_names_have_no_separators, C30_callers_give_room, C30_copy_fits_and_terminates, C30_documented_size_overruns, C54_equivalence_relation, C54_same_shape_partial, C54_same_shape_refuted, C54_same_shape_without_simple_arrays, C61_is_ancestor_exact, C61_is_ancestor_null |
| HintProps | Closed under the global context | C104_descriptions_refuted, C104_file_partial, C104_names_refuted, C104_undefined, C104_unpublished_refuted, C104_written |
| HostProps | Closed under the global context | C76_add_model_iff, C76_add_service_iff, C76_added, C76_get_service, C76_names, C76_no_standard_service, C76_rejected_unchanged, C76_standard_service, C76_standard_service_alive_partial, C76_standard_service_alive_refuted, C76_standard_service_stays, C77_finalised_at_the_end_partial, C77_finalised_once_in_reverse_partial, C77_finalised_once_in_reverse_refuted, C77_load_iff, C78_destruction_partial, C78_destruction_refuted, C78_standby_exits |
| LinkProps | Closed under the global context | C23_counts_are_exact_partial, C23_counts_are_exact_refuted, C24_sources_are_exact_partial, C24_sources_are_exact_refuted, C57_every_linking_source_is_asked_partial, C57_every_linking_source_is_asked_refuted, C57_every_other_source_is_skipped, C58_can_remove_partial, C58_can_remove_refuted |
| LockProps | Closed under the global context | C12_deadlock_refuted, C12_doomed, C12_only_deadlock_partial, C12_progress_partial |
| LogKindProps | Closed under the global context | C47_failed_restore_refuted, C47_name_of_kind, C47_predefined, C47_stable, C47_store_restore_partial, C47_store_restore_refuted |
| LogQueueProps | Closed under the global context | C48_all_delivered, C48_delivered_while_running, C48_destruction_terminates, C48_once_in_order |
| LogTextProps | Closed under the global context | C53_fields_unique, C53_pattern_meaning, C53_pattern_reads_inside_partial, C53_pattern_reads_inside_refuted, C53_properties_first_wins, C53_split_fields, C53_trimmed_unique, C53_unescape_inverts, C53_unescape_plain, C66_configuration_safe_partial, C66_configuration_safe_refuted, C66_filters, C66_levels, C66_writes |
| OutProps | Closed under the global context | C94_characters_partial, C94_characters_refuted, C94_enumerations, C94_fixed_texts, C94_float_integers, C94_floats, C94_floats_refuted, C94_format_kept_partial, C94_format_kept_refuted, C94_format_refuted, C94_identifies_partial, C94_integers, C94_kind, C94_messages, C94_messages_defined, C94_null_string_refuted, C94_strings_refuted, C94_undefined_exactly, C94_uuid |
| OwnProps | Closed under the global context | C105_append, C105_assign_partial, C105_assign_refuted, C105_concatenation, C105_histories_partial, C105_set, C105_stream_end, C105_stream_partial, C105_stream_refuted |
| PaceProps | Closed under the global context | C82_always_usable_partial, C82_clamped_partial, C82_clamped_refuted, C83_catches_up, C83_clock_set_back_refuted, C83_defined_a_year, C83_defined_at_100, C83_end_of_time_refuted, C83_no_drift_refuted, C83_not_early, C83_one_speed, C83_waits |
| ParProps | Closed under the global context | C96_hold_partial, C96_hold_refuted, C96_one_loop_partial, C96_one_loop_refuted, C96_refused, C96_rest |
| PathItemProps | Closed under the global context | C29_array_index, C29_components_order, C29_lookup_order, C29_references_by_underscore |
| PathProps | Closed under the global context | C28_containers_by_underscore, C28_path_resolves_to_object_partial, C28_path_resolves_to_object_refuted, C28_path_without_simulator, C28_paths_are_distinct_partial, C28_shared_names_refuted, C29_dots, C29_failure_is_final, C29_paths_compose_partial, C29_paths_compose_refuted, C29_shared_names_refuted, C29_steps_then_whole_partial |
| PersistProps | Closed under the global context | C37_round_trip_partial, C37_round_trip_plain_partial, C37_sequence_partial, C37_typed_sequence_partial, C37_wide_string_refuted, C38_foreign_partial, C38_foreign_prefix_refuted, C38_truncated, C38_truncated_sequence, C38_truncated_typed, C38_untyped_refuted |
| PlaceProps | Closed under the global context | C87_accepted, C87_all_or_nothing_refuted, C87_apart, C87_can_be_published, C87_declared, C87_enumeration, C87_found_by_name, C87_history, C87_inside, C87_negative_length_refuted, C87_overlap_refuted, C87_same_parts, C87_saved, C87_set_values, C87_stops_at_refused, C87_wrong_length |
| PubProps | Closed under the global context | C88_accepted, C88_added, C88_content, C88_found_partial, C88_item_moves_refuted, C88_kept, C88_only, C88_path_partial, C88_path_refuted, C88_reason, C88_refused, C88_structure_refuted, C88_unique_all_partial, C88_unique_partial, C88_unique_refuted, C88_unknown_partial, C88_unpublish |
| PyProps | Closed under the global context | C72_index_partial, C72_iteration, C72_negative_index_refuted, C73_call_reaches_component, C73_component_exception, C73_names_stay_different, C73_no_dynamic_invocation, C73_results, C74_booleans, C74_characters, C74_field_copy, C74_integers_exact_or_refused, C74_numbers, C74_round_trip_partial, C74_round_trip_refuted, C74_strings, C75_isinstance_partial, C75_isinstance_refuted, C75_most_derived_partial |
| RefPyProps | Closed under the global context | C107_bounds, C107_delete_at, C107_delete_refuted, C107_determined, C107_scripts_partial, C107_statements |
| ReqProps | Closed under the global context | C43_getter_index, C43_index_bijection, C43_last_accepted_value, C43_property_requests_partial, C43_rejected_changes_nothing, C43_request_exists, C43_set_parameter_partial, C43_set_parameter_refuted, C43_set_return_partial, C43_setter_index_refuted, C43_void_return, C44_created_distinct, C44_missing_parameter, C44_nested_parameters, C44_nested_round_trip, C44_other_kind, C44_read, C44_simple_round_trip, C68_create_request, C68_one_per_name, C68_operation_requests, C68_property_requests, C68_publish_operation, C68_publish_property, C69_invoke_needs_inputs, C69_invoke_wrong_name, C69_property_access, C69_property_get, C69_property_set |
| SchedClockProps | Closed under the global context | C13_executed_or_skipped_by_state, C70_executed_only_before_its_time_is_over, C70_not_skipped_while_the_clocks_run, C70_skipped_only_when_its_time_is_over |
| SchedLiveProps | Closed under the global context | C71_a_run_reaches_every_pending_event |
| SchedProps | Closed under the global context | C01_observed_times_never_decrease, C01_time_never_decreases, C02_never_late, C02_one_at_a_time, C02_started_exactly_when_due, C03_first_posted_first_executed, C03_immediates_before_the_rest, C03_immediates_in_order, C04_for_ever, C04_not_before_posted, C04_occurrences_exact, C05_removed_never_starts_partial, C06_ids_fresh, C06_ids_unique, C06_numbers, C07_cyclic_events_have_positive_cycle_partial, C07_rejected_exactly, C07_rejected_without_effect, C07_undefined_exactly, C08_next_scheduled_is_minimum, C08_time_never_passes_a_pending_event, C09_at_most_one_start_after_hold, C09_none_after_hold_from_entry_point, C09_nothing_lost, C10_disciplined_histories_are_safe_partial, C13_in_order_partial, C13_not_before_its_time, C14_epoch_follows_simulation_time, C14_mission_follows_epoch_time, C14_set_epoch, C14_set_mission, C14_set_mission_start, C15_change_inside_window_only, C15_closed_while_events_run, C15_inside_window, C15_outside_window_no_effect |
| SchedRefuted | Closed under the global context | C03_first_posted_first_executed_refuted, C05_removed_never_starts_refuted, C07_cyclic_positive_refuted, C09_no_start_after_hold_refuted, C10_add_race_refuted, C10_post_during_wait_refuted, C10_remove_during_wait_refuted, C10_remove_immediate_refuted, C10_remove_same_instant_dangling_refuted, C10_remove_same_instant_refuted, C10_remove_zulu_in_batch_refuted, C10_retime_self_to_past_refuted, C13_removing_zulu_spares_simulation_refuted |
| SchedStoreProps | Closed under the global context | C11_everything_stored_is_back, C11_same_future_partial, C11_time_window_refuted, C11_zulu_events_lost, C11_zulu_events_refuted |
| SimEventProps | Closed under the global context | C17_accepted_exactly, C19_accepted_exactly, C60_deferred_hold_twice, C79_commands_show, C79_init_kept, C79_states_are_announced_partial, C79_states_are_announced_refuted |
| SimProps | Closed under the global context | C16_transitions_are_documented_partial, C16_transitions_are_documented_refuted, C16_transitions_documented_or_out_of_aborting, C17_in_state_commands_are_accepted, C17_out_of_state_commands_are_ignored, C18_abort_sets_the_state, C18_aborting_is_final_partial, C18_aborting_is_final_refuted, C19_at_most_once_in_order, C19_exactly_once_in_order_partial, C19_exactly_once_in_order_refuted, C59_rests_between_commands_partial, C59_rests_between_commands_refuted, C60_deferred_hold_takes_effect, C60_deferred_hold_used_once, C60_only_a_hold_stops_a_run_partial, C60_only_a_hold_stops_a_run_refuted |
| SinkProps | Closed under the global context | C51_emit_complete, C51_notify_sound, C51_remove_links, C51_self_unsubscribe_refuted, C51_subscribe, C51_throwing_sink_refuted, C51_ub_only_self_removal |
| StringProps | Closed under the global context | C35_default_is_empty, C35_observers, C35_strings_stay_within_capacity, C36_compare_view, C36_operators_are_lexicographic, C36_total_order |
| TimeProps | Closed under the global context | C52_back, C52_date_round_trip, C52_from_chrono, C52_large_literals, C52_literals, C52_order_and_differences, C52_plus_minus, C52_reference, C52_time_point_round_trip, C52_truncates, C52_units, C65_consistent, C65_exact_partial, C65_finer_refuted |
| TimedProps | Closed under the global context | C85_destroyed_entry_point_refuted, C85_hold_used_up, C85_left_over_hold_refuted, C85_negative_refused, C85_never_beyond, C85_posts_the_end, C85_returns, C85_stops_after_the_duration_partial |
| TypeProps | Closed under the global context | C45_accepted, C45_expansion_ends_partial, C45_failed_changes_nothing, C45_inheritance_acyclic, C45_literals, C45_one_type_per_uuid, C45_primitive_types, C45_published_fields, C45_recursive_structure_refuted, C45_registered_as_described, C45_registered_never_changes, C45_standard_types |
| UnlinkProps | Closed under the global context | C81_events_references, C81_field_links, C81_neighbours_refuted, C81_nested_refuted, C81_others_kept, C81_published_refuted, C81_removed_partial |
| UuidProps | Closed under the global context | C33_parse_accepts_exactly_the_form, C33_parse_then_print, C33_print_then_parse, C34_equal_hash, C34_order_is_numeric, C34_strict_total_order |
| ZulProps | Closed under the global context | C97_all_due, C97_disconnect, C97_punctual_partial, C97_punctual_refuted, C97_stop |
