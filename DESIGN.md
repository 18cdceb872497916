# Formal model of LampPost in Rocq/Coq 8.16.1

Source: `/repo` (C++). Everything below lives in `rocq/theories/` under the logical
name `Verif`. Build: `cd rocq && coq_makefile -f _CoqProject -o Makefile && make -j4`.

## 1. Trusted base

* Coq's kernel (8.16.1). No kernel check is switched off; there are no axioms,
  parameters, admitted lemmas or module functors of our own.
* What `Print Assumptions` lists under each theorem in the `*Props.v` files
  (each theorem is followed by that command). The intended result is "Closed under the
  global context" for every theorem. Any exception is listed in section 5.
* The reading of the C++ code: every model definition cites the file and lines it
  models. The model was written by hand from the text; the code was not compiled.

### Modelled

| Part | Files in /repo | Model file |
|---|---|---|
| datagram nodes on a heap, shared pointers, all RawDatagram/Datagram operations | `RawDatagram.{h,cpp}`, `Datagram.{h,cpp}`, `Data.h` | `DatagramModel.v` |
| FlatBuffers (de)serialisation at the level of the schema's tables | `RawDatagram.cpp:262-402`, `Message.cpp`, `schemas/*.fbs` | `SerialModel.v` |
| the bytes of a message: FlatBuffers tables, vtables, offsets; reader and builder | `Message.cpp:28-52`, `RawDatagram.cpp:262-402`, `schemas/*.fbs` | `WireModel.v` (over `SerialModel.v`) |
| JSON conversion at the level of the json-c object tree | `RawDatagram.cpp:404-479` | `SerialModel.v` |
| streaming | `RawDatagram.h:124-190` | `PrintModel.v` |
| messages that own their payload | `Message.{h,cpp}` | `MessageModel.v` (over `SerialModel.v`) |
| shared_ptr references between buses and participants, raw bus pointers, destructors | `Bus.{h,cpp}`, `Publisher.cpp`, `Subscriber.cpp`, `ActionProvider.cpp`, `ActionConsumer.cpp` | `OwnModel.v` (on its own) |
| raw byte buffers with explicit allocation | `RawBytes.cpp` | `RawBytesModel.v` |
| sender prefix operations, topic matching | `Message.cpp`, `AntMatcher.cpp` | `BusModel.v` |
| uuid formatting | `Uuid.h`, `Uuid.cpp` | `UuidModel.v` |
| the bus: tree of buses, queue, run loop, locks, distribution, subscribers, publishers, callbacks as environment choices | `Bus.{h,cpp}`, `Publisher.cpp`, `Subscriber.cpp` | `BusModel.v` |
| action provider / consumer | `Bus.h:122-172`, `ActionProvider.cpp`, `ActionConsumer.cpp` | `BusModel.v`; the synchronous `Request` in `RequestModel.v`; both together in `SyncModel.v`, and among several processes in `AskModel.v` |
| which members each bus step reads and writes, and the mutexes held meanwhile | as for the bus | `RaceModel.v` (over `BusModel.v`) |
| plugin templates, manager, instances, library handles | `Plugin*.cpp` | `PluginModel.v` |
| configuration reading and plugin start-up | `LampPost.cpp` | `AppModel.v` |
| application lifecycle (Start, Stop, IsStopped, the root bus's loop) | `LampPost.cpp`, `Bus.cpp`, `main.cpp` | `LifeModel.v` |
| the program: main, signals, exceptions leaving Start | `main.cpp` | `ProgModel.v` (over `LifeModel.v`) |
| signal handlers on Linux, macOS and Windows; abort | `Xnix.cpp`, `Osx.cpp`, `Windows.cpp`, `CMakeLists.txt` | `SigModel.v` (over `ProgModel.v`) |
| path helpers, directory listing, configuration comparison | `Filesystem.cpp` (Unix branches), `*Configuration.h` | `FilesystemModel.v` |
| logging and the signal handler | `Log.cpp`, `Xnix.cpp` | `LogModel.v` |
| link plugin: settings, frames, callbacks | `Link.cpp` | `LinkModel.v` |
| link plugin when calls of ZeroMQ fail | `Link.cpp` | `TransportModel.v` |
| a process with links: the bus machine plus the links' steps | `Link.cpp`, `Bus.cpp` | `NodeModel.v` |
| the SysInfo plugin on the bus: how its two callbacks end | `SysInfo.cpp` | `SysInfoModel.v` (over `BusModel.v`) |
| the SysInfo plugin: its log lines, its worker, its configuration | `SysInfo.cpp`, `PluginInstance.cpp` 10, 35-54 | `SayModel.v` (over `SysInfoModel.v`) |
| the plugin manager's log lines | `PluginManager.cpp` 16, 52-230 | `TellModel.v` (over `PluginModel.v`) |
| the plugins' worker threads next to the thread that tears the program down | `LampPost.cpp`, `PluginManager.cpp`, `PluginTemplate.cpp`, `PluginInstance.cpp`, `SysInfo.cpp`, `Link.cpp` | `WorkerModel.v` (over `BusModel.v`) |
| a link's context, sockets, mutexes and subscriber through Initialize, Start, Stop and Deinitialize, with its worker and the bus thread in its callback | `Link.cpp`, `PluginInstance.cpp`, `Bus.h` | `LinkLifeModel.v` |
| whose code is run when plugin libraries are closed before the root bus goes | `LampPost.cpp`, `PluginManager.cpp`, `Bus.h` | `CodeModel.v` (over `OwnModel.v`) |
| networks of linked processes | `Link.cpp` | `NetModel.v` |
| whole processes joined by links | `Link.cpp`, `Bus.cpp` | `ClusterModel.v` |
| the program from its command line on | `main.cpp`, `LampPost.cpp`, `PluginManager.cpp` | `MainModel.v` (over `ProgModel.v`, `AppModel.v`, `PluginModel.v`) |
| the plugins that come with LampPost, at start-up | `SysInfo.cpp`, `SysInfo.h`, `Link.cpp`, `Link.h`, `PluginInstance.h` | `ShippedModel.v` (over `LinkModel.v`) |
| which links of several processes are connected | `Link.cpp`, `config/default_server.cfg`, `config/default_client.cfg` | `WiringModel.v` (over `LinkModel.v`) |
| path helpers, listings and the search for plugins on Windows | `Filesystem.cpp`, `PluginManager.cpp` | `WinFsModel.v` |
| Windows service status reporting | `Service.cpp` | `ServiceModel.v` |
| installing, removing and starting the Windows service; its command line | `Service.cpp`, `service/main.cpp` | `InstallModel.v` |

### Not modelled

* The sources of FlatBuffers: an empty submodule in /repo. `WireModel.v` models the accessors and the builder after
  FlatBuffers 1.10; that it does so faithfully is part of the trusted base of C14, C58, C81-C83.
* ZeroMQ, json-c's tokenizer, libc, `dlopen`. They appear as
  data structures at their API boundary or as explicit hypotheses of a theorem (shown satisfiable).
* Weak memory. Each access to shared memory is a step of a sequentially consistent interleaving.
  Where the code accesses shared state without a lock (a data race in C++), the theorems about
  interleavings state what the racing steps do at this granularity. C76 and C77 say where those races are on the bus.
* `shared_ptr` reference counts and destruction order: nodes are never reclaimed in the heap
  model (a node that is unreachable cannot be observed). Freeing is modelled where the property
  is about it (RawBytes, library handles, and buses with their participants in `OwnModel.v`; there the
  destruction order of several objects that go at once is fixed).
* Memory exhaustion, stack overflow by recursion depth, integer overflow of container sizes
  except where stated (GetCount).
* Time: a timeout is an environment choice.
* `Version.h`, `Identifiable`, `SettingsManager` (its reader has an empty body), exception message
  texts.

### Simplifications

Each model file states its own at the top. The ones that matter most for reading the theorems:

* Datagram: nodes are never freed; `Data<T>` values are immutable and stored by value.
* Serialisation: `SerialModel.v` converts between datagrams and the table trees that the FlatBuffers accessors show;
  `WireModel.v` reads and writes these trees as bytes. A read outside the received block is undefined behaviour;
  alignment of reads does not matter. Buffers of 2^31 bytes and more are outside the theorems about writing.
* Bus: a critical section that only touches data under its lock is one step; locks held across
  callbacks are explicit. At most one thread runs `Start` on a root bus. Objects are never
  reclaimed and the destructor is not modelled (see `OwnModel.v` for both). A client's publish function returns normally.
  Creating an action provider or consumer creates its subscriber and publisher in the same step.
  Data races are not modelled as undefined behaviour: the accesses interleave. `RaceModel.v` names them.
* SysInfo: its callbacks end as its code says; those of others stay open. Logging and the worker are in `SayModel.v` only, where a log call is one step (C56) and the sleep between two rounds is the choice when to go on.
* The plugin manager's log: in `TellModel.v` only; a log call is one step (C56), and dlclose succeeds, so that the two lines of `PluginManager.cpp` 61-64 are not written.
* Closed libraries: closing the last handle really removes the code, and a library runs its own copy of what is compiled
  into it. Destroying a bus is not counted as library code (C79_bus is about buses). No call hands objects from one library
  to another. Messages left in the queue are left out.
* Request: every access to the shared locals is a step; the assignment of the response is two.
* Plugins: the manager is used by one thread; a library is what its entry points do; each call of
  `CreateInstance` makes an object, returns null, or throws; `CreateInfo` and `Deinitialize` return.
* Application reader: file contents are strings; lists are shorter than 2^31; a plugin's
  `Initialize` does not call back into the manager.
* Lifecycle: one thread in `Start`; `Stop` is one step; every distribution returns.
* Program: in `MainModel.v` start-up is one step, plugins do not use the plugin manager, and their `Stop` and `Deinitialize`
  return. Static objects' destructors after `main` are left out.
* Signals: a handler runs as one step; what `sigaction`, Microsoft's `signal` and `abort` do is taken from their documentation.
* Log: one character of output at a time; locking a mutex twice from one thread waits; allocation
  in the signal handler is left out.
* Link: zmq hands over whole multipart messages; results that are only logged are left out. `TransportModel.v` lets each
  call of sending and receiving fail; there a failed call leaves the socket as it was, and frames sent with
  ZMQ_SNDMORE wait in the socket for the one that completes the message (documented behaviour of ZeroMQ).
* Node: a link callback sends when it is entered.
* Network: every message arrives once at every peer, in any order; connections exist beforehand;
  distribution on a node is one step in `NetModel.v`. `ClusterModel.v` does without the latter: each process is a
  whole `NodeModel.v`, and C91 shows that it distributes what `NetModel.v` says.
* Service: registration of the handler succeeds; the assignment of one status field is one step;
  no exception leaves `LampPost::Start`.

## 2. Style

* Strings are Coq `string`s of bytes (`ascii`). `std::map<std::string,_>` is a sorted
  association list (`OMap.v`) ordered bytewise as unsigned characters, as `std::string::compare` does.
* A C++ operation is a function `heap -> heap * res A`, `res A := Ok a | Throw e | UB | NoFuel`.
  The heap is kept on a throw, so partial effects of failing calls are visible.
  `UB` marks a null dereference or a dangling access. `NoFuel` marks a recursion cut off by the
  fuel argument; theorems either exclude it or show that it occurs for every fuel (divergence).
* Machines are `step : state -> label -> outcome`; theorems quantify over all label lists.
* Files: `XModel.v` definitions only; `XSpec.v` the independent specification used in
  statements; `XProofs.v` lemmas; `XProps.v` the theorems, each with a concrete `Example`
  that its hypotheses are met, and `Print Assumptions`.
* Where the code does not do what a user would expect, the property is either phrased as the
  exact behaviour or a theorem named `..._refuted` exhibits the failing case.

## 3. Properties: model and method

| Id | Modelled / how proved |
|---|---|
| C01 | `Copy` on the heap; representation predicate between a heap location and a tree; induction on the tree |
| C02 | closed sets of locations; every command confined to one side preserves the other side (invariant over command lists) |
| C03 | refinement of heap statements to a pure tree machine, induction over statement lists |
| C04 | invariant over all command lists including raw aliasing |
| C05 | equality decided by induction on trees against an independent relation; IEEE bit patterns for doubles |
| C06 | refinement of dictionary statements to a history-based finite map |
| C07 | refinement of list statements to a sequence |
| C08 | case analysis for every state; counterexample theorem for index access |
| C09 | all heaps, stored and requested types |
| C10 | path descent against a split-based specification, induction on the path |
| C11 | invariant (acyclic, no null) over command lists; divergence for a cyclic heap for every fuel |
| C12 | serialise/deserialise composition equals an independent normalisation; induction on trees |
| C13 | deserialisation of arbitrary tables against a relational specification; UB characterised exactly |
| C14 | composition of C83 and C81 |
| C15 | conversion equals an independent translation for every JSON tree |
| C16 | rendering equals an independent pretty printer; two different trees printing equally |
| C17 | allocation-level model; invariant over append histories; double free by witness |
| C18 | string lemmas for all strings |
| C19 | both directions for all strings |
| C20 | sequential distribution equals an independent list of recipients; small-step machine refines it |
| C21, C22 | invariant over all schedules relating the accepted sequence to done/current/pending |
| C23, C24 | invariants over all schedules |
| C25 | invariants over all schedules after a stop point |
| C26 | invariant and refinement to a map of children |
| C27 | invariant: every bus of the tree publishes into the root queue |
| C28 | recursive detach; preservation over all later histories |
| C29 | invariant over histories on such a bus |
| C30 | big-step and small-step throw propagation |
| C31, C32 | lock ownership invariant, progress and blocking theorems |
| C33 | two-step publish; safety without concurrent detach, witness with |
| C34-C36 | ghost-free log of sent responses and invoked callbacks; invariants over histories |
| C37, C38 | for all payloads, on the datagram model |
| C39 | small-step model of waiter, responder and clock; invariant over interleavings |
| C40 | formatting function over all random words |
| C41 | for all states |
| C42 | smallest free index, termination by pigeonhole |
| C43 | state preservation on the failing path; witness |
| C44 | full case analysis for all paths and library behaviours |
| C45 | counting invariant over load/unload histories |
| C46 | event log of unload for all instance sets |
| C47, C48 | configuration reader over all datagrams; the exact events and outcome of a call for every behaviour of the plugin |
| C49, C50 | lifecycle machine, all histories |
| C51 | instance machine, invariant over all histories |
| C52-C55 | for all strings, directories, readlink outcomes, configurations |
| C56, C57 | mutex machine, invariant over all schedules |
| C58 | frame lists, composition with the message round trip |
| C59 | invariant of a node with a link over all histories |
| C60 | network machine: termination measure for one link and for a star; infinite run for two links |
| C61 | all configurations |
| C62 | service machine, all event sequences |
| C63 | exact limits of the bus thread's progress: a measure that decreases on its steps, and the states where it waits |
| C64 | invariant over histories: at most one invocation per request whose callback does not throw |
| C65 | invariant over manager histories |
| C66 | a null instance is stored and makes unloading undefined; invariant and witness |
| C67 | forwarding characterised by routes through the network, induction over executions |
| C68 | end of the service machine: what is reported last, when it hangs; witness of a wrong last report; invariants linking the stop event, the handler and the main thread to the controls so far; the service's own steps to the stop request, backwards from it |
| C69 | separation invariant over histories of message and datagram operations |
| C70 | the generator has at most 2^32 seeds, pigeonhole over the sequence of draws |
| C71 | LoadTemplates as a relation on the list of files found, induction over that list; ledger of handles for the leak |
| C72, C73 | an own small heap with reference counting as steps; invariant: references are live, children point upwards, a child's root is its parent's root, the subscriber and publisher of an action are reachable only through it; how objects may change is a preorder kept by every step |
| C74, C75 | the bus and one `Request` as a product: request, flight, invocation and return of the callback are shared steps; both projections are executions of their models, so C34, C36, C39 carry over; invariant: the lambda is running exactly if some bus thread is inside that request callback |
| C76, C77 | footprints of steps; completeness of reads by a frame theorem (replacing the content of a member outside the footprint commutes with the step), of writes by content change, of mutexes by exclusion over reachable states; races characterised by an equivalence |
| C84 | step lemmas for callbacks, providers and open requests; at most one bus thread answers a consumer; locks held on a stack of frames |
| C85 | invariant: each worker is over, or has what it needs and will be stopped before that changes; detaching runs to its end when no lock is held; a measure of the steps left to a stopped worker |
| C86 | invariant: who holds which mutex and which sockets are open, by where each thread is; the events so far say the same; measures of the steps left to each thread; a handle no pointer holds is never closed; for what is sent and polled: what a thread has done and what it has still to do in this round is what it had to do |
| C87 | unwritten memory as an argument; strings split at their last backslash |
| C88 | case analysis over the answers of the operating system; induction on histories with a counter for announcements |
| C89 | invariant by induction from the end of the execution: which handlers are still installed, and a run of ProgModel with the same events |
| C90 | induction on the sequence of sends with the number of waiting topic frames; the first four bytes of a spoilt message as a root offset beyond its end |
| C91 | refinement: every step of the whole processes is matched by takes of `NetModel`, with the multiset of pending items as the link between the states; at rest this multiset is empty; then C60 and C67 |
| C92 | invariant: the exact events so far, by phase; projection to `ProgModel`; an invariant of start-up relating the events to the instances the plugin manager holds, then C45-C48, C66, C71, C80 |
| C93 | an invariant of start-up: the instances made so far are those of a numbering of the calls so far whose type is loaded, and each template's names in use are an initial segment of the numbers; strings split at their last non-digit |
| C94 | per process: the calls of a subscriber's callback are its inbox, and this is the part of the accepted messages its topic is for (C20, C21, and at rest all that was accepted has been distributed); projections of the permutations of C91; networks that differ in numbers of buses only run alike |
| C95 | the calls of zmq functions determined by the settings (C61); endpoints taken apart at the last colon, decimal text is injective; wires as lists without duplicates; the files' meaning computed, their instances by C93 |
| C96 | the origin of topic and data as an invariant of messages on the way, received and accepted (over C34's origin on each node); C34 and C37 at the moment of the call; providers: C94's argument with a relation between message and call, where a refused message would have been lost; answers: the execution split where the distribution of the answer begins, then C36; at most once by C64, since a throwing callback would have lost its message |
| C97 | an execution of `AskModel.v` projected to one of the processes and to one of Request on its own bus (`SyncModel.v`), with the same calls and labels; then C39, C74, C75's invariants on the second and C96's delivery on the first |
| C98 | an execution of `SayModel.v` projected to one of `SysInfoModel.v`; invariants: on each bus thread, the lines due for the callbacks entered are those written and the one still owed; a worker's publications and lines are whole rounds and what its position says; a bound on what is left after Stop; delivery of a publication from C27, the flag from C10 |
| C99 | erasing the lines gives the functions of `PluginModel.v`; the lines by cases on what is found of the file, against a relation between files and lines; induction on directories, search paths and histories |
| C78 | the plugin's callbacks as a restriction of the bus machine; executions project to the bus's, so its theorems carry over; history of the lambda's program counter by induction on executions |
| C79 | an ownership machine with a maker for each object and a log of calls; frame of each call before anything is freed, then what freeing keeps; an invariant relating the log to the buses' lists; induction on executions |
| C81 | the reader against a relational specification of the format, both directions; induction on the bytes left |
| C82 | a family of byte strings, induction on the level |
| C83 | positions by distance from the end, stable under growth to the front; invariant of the builder (vtables lie where recorded, fields between start and end); induction on trees |
| C80 | the lifecycle machine inside main; events and output so far as a function of the phase; invariant by induction on executions |

## 4. Partial results

* C32: threads outside callbacks. False of the code as first stated (witness theorems: the bus thread can
  wait for a `Detach`; callbacks that create children keep one distribution going for ever). Proved: a step is
  possible whenever no `Detach` is under way, and the `Detach` case is all that remains. C63 gives the corrected form.
* C35: at most one invocation per request. False when a callback throws and the bus is started again
  (witness theorem); C64 is the corrected statement, proved.
* C62: status reports. Proved for runs in which the two threads are never inside `ReportStatus`
  at once; false without that (witness theorem).

The notes in `MANIFEST.json` say for each claim what is and what is not covered.

## 5. Assumptions

`Print Assumptions` reports "Closed under the global context" for every theorem in the `*Props.v` files.
A checker that lists the axioms of all loaded library files also lists seven fields of the
standard library module type `Coq.ssr.ssrunder.Under_rel` (`Under_rel`, `Under_rel_from_rel`, `Under_relE`,
`Over_rel`, `over_rel`, `over_rel_done`, `under_rel_done`). They belong to a file that the standard
library loads; no theorem here uses them.

## 6. Tests of the theorems

`seeded/LOG.jsonl` lists wrong programs: one edit of a model definition each, made in a scratch copy, with the
theorems that stop proving. Edits marked as repairs change code behaviour that a property describes as a
defect; there the theorem describing the defect must fail.
