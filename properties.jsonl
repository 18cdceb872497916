{"id": "C01", "title": "Copying a datagram reproduces it exactly", "statement": "Copy-constructing a Datagram (or passing it by value, or assigning it to another Datagram) yields a datagram with exactly the same type, values, list order, keys and nesting as the source, including empty lists and empty dictionaries, and the source keeps its contents (in an assignment: unless the target is part of the source).", "quantifier": "every datagram of any shape, size and nesting depth, in any heap", "why_tests_cant": "the set of datagrams is infinite and nested without bound; tests sample a few shapes", "anchors": ["src/lamppost/messages/Datagram.cpp:Datagram::Datagram(const Datagram&)", "include/lamppost/messages/Datagram.h:Datagram::operator=(const Datagram&)", "src/lamppost/messages/RawDatagram.cpp:RawDatagram::Copy"]}
{"id": "C02", "title": "A copy is isolated from its original", "statement": "After copying a datagram, no sequence of API calls made through the copy (or views and copies derived from it) changes anything observable through the original, and no sequence of API calls through other handles changes the copy.", "quantifier": "every datagram, every later sequence of datagram API calls through any handles on the one side", "why_tests_cant": "isolation is about every future history of mutations and about hidden sharing of nested nodes", "anchors": ["src/lamppost/messages/RawDatagram.cpp:RawDatagram::Copy", "include/lamppost/messages/Datagram.h:Datagram::operator=", "src/lamppost/messages/Datagram.cpp:Datagram::Datagram"]}
{"id": "C03", "title": "Nested statements on a datagram behave like updates of a plain tree value", "statement": "Any sequence of statements of the form d[sel1]...[seln].op (keys or indices, then assign / add / remove / clear / read / count / exists) on one datagram yields exactly the results, exceptions and final contents of the same statements on an immutable tree of Empty/Value/List/Dictionary: writes through subscripts are visible in the parent at that position and nowhere else.", "quantifier": "every sequence of statements, every path depth, every starting datagram", "why_tests_cant": "needs all operation histories and all nesting depths; aliasing bugs show only in rare combinations", "anchors": ["include/lamppost/messages/Datagram.h:Datagram::operator[]", "src/lamppost/messages/RawDatagram.cpp:RawDatagram::Get", "src/lamppost/messages/RawDatagram.cpp:RawDatagram::Add", "src/lamppost/messages/RawDatagram.cpp:RawDatagram::Remove", "src/lamppost/messages/RawDatagram.cpp:RawDatagram::Clear", "include/lamppost/messages/RawDatagram.h:RawDatagram::SetValue"]}
{"id": "C04", "title": "A datagram has exactly one kind of content at any time", "statement": "After any history of API calls, a datagram of type Empty has no keys, items or value; a List has no keys or value; a Dictionary has no items or value; a Value has no keys or items. Content discarded by a change of type never reappears.", "quantifier": "every history of datagram API calls including raw pointer insertion", "why_tests_cant": "residue from an earlier type only shows after particular switch sequences", "anchors": ["src/lamppost/messages/RawDatagram.cpp:RawDatagram::Get", "src/lamppost/messages/RawDatagram.cpp:RawDatagram::Add", "include/lamppost/messages/RawDatagram.h:RawDatagram::SetValue", "src/lamppost/messages/RawDatagram.cpp:RawDatagram::operator="]}
{"id": "C05", "title": "Datagram equality is structural", "statement": "d1 == d2 holds exactly when both have the same type and: values have the same stored type and equal value; lists have the same length and pairwise equal items; dictionaries have the same key set and equal values per key. It is symmetric and transitive, and reflexive exactly for datagrams that contain no NaN.", "quantifier": "every pair (triple) of datagrams", "why_tests_cant": "an equivalence over an infinite nested domain; NaN and signed zero corner cases", "anchors": ["src/lamppost/messages/RawDatagram.cpp:RawDatagram::operator==", "include/lamppost/messages/Data.h:Data::Equals", "src/lamppost/messages/Datagram.cpp:Datagram::operator=="]}
{"id": "C06", "title": "A dictionary datagram behaves as a finite map", "statement": "After any sequence of key assignments and removals on a dictionary, KeyExists(k) tells whether the last operation on k was an assignment, reading k yields the last value assigned to it, GetCount is the number of live keys as a 32-bit number, and removing an absent key raises KeyNotFoundException naming that key and changes nothing.", "quantifier": "every sequence of dictionary operations and keys", "why_tests_cant": "refinement to a map over all histories", "anchors": ["src/lamppost/messages/RawDatagram.cpp:RawDatagram::Get(const std::string&)", "src/lamppost/messages/RawDatagram.cpp:RawDatagram::Remove(std::string)", "src/lamppost/messages/RawDatagram.cpp:RawDatagram::KeyExists", "src/lamppost/messages/RawDatagram.cpp:RawDatagram::GetCount"]}
{"id": "C07", "title": "A list datagram behaves as a sequence", "statement": "Add appends at the end; reading index i yields the i-th item; Remove(i) deletes exactly item i and shifts the later ones; an index at or beyond the length raises IndexOutOfBoundsException; GetCount is the length modulo 2^32.", "quantifier": "every sequence of list operations and indices", "why_tests_cant": "refinement to a sequence over all histories and lengths", "anchors": ["src/lamppost/messages/RawDatagram.cpp:RawDatagram::Add", "src/lamppost/messages/RawDatagram.cpp:RawDatagram::Get(unsigned int)", "src/lamppost/messages/RawDatagram.cpp:RawDatagram::Remove(unsigned int)", "src/lamppost/messages/RawDatagram.cpp:RawDatagram::GetCount"]}
{"id": "C08", "title": "Which failing datagram calls change state", "statement": "Remove, GetCount, Clear and typed reads that raise an exception leave every datagram unchanged; a subscript by index that raises IndexOutOfBoundsException leaves a list unchanged but turns any other datagram into an empty list first (its previous contents are lost).", "quantifier": "every datagram and every failing call", "why_tests_cant": "the strong exception guarantee ranges over all states in which a call may fail", "anchors": ["src/lamppost/messages/RawDatagram.cpp:RawDatagram::Get(unsigned int)", "src/lamppost/messages/RawDatagram.cpp:RawDatagram::Remove", "src/lamppost/messages/RawDatagram.cpp:RawDatagram::GetCount", "src/lamppost/messages/RawDatagram.cpp:RawDatagram::Clear", "include/lamppost/messages/RawDatagram.h:RawDatagram::Get<T>()"]}
{"id": "C09", "title": "Typed reads return the last value written with that type", "statement": "After a value of type T is assigned, reading as T returns it and reading as any other type raises InvalidOperationException; reading a list, dictionary or empty datagram as any T raises InvalidOperationException; reads never modify the datagram.", "quantifier": "every datagram, stored type, requested type and value", "why_tests_cant": "all pairs of stored and requested types, all values, all prior states", "anchors": ["include/lamppost/messages/RawDatagram.h:RawDatagram::Get<T>()", "include/lamppost/messages/RawDatagram.h:RawDatagram::SetValue", "include/lamppost/messages/RawDatagram.h:RawDatagram::IsOfValueType"]}
{"id": "C10", "title": "Path lookup with default is total, pure and exact", "statement": "Get<T>(path, default) returns the T value found by descending dictionary keys named by the '/'-separated components of path (one trailing '/' is ignored, empty components are empty keys), and the default in every other case; it never throws, never modifies the datagram.", "quantifier": "every datagram, path string, type and default", "why_tests_cant": "unbounded paths and trees, odd slashes, missing or wrongly typed intermediate nodes", "anchors": ["include/lamppost/messages/RawDatagram.h:RawDatagram::Get(std::string path, DataType defaultValue)", "include/lamppost/messages/Datagram.h:Datagram::Get"]}
{"id": "C11", "title": "Datagrams stay finite trees, so recursive operations terminate safely", "statement": "If raw node pointers are only added where they cannot create a loop, then after any history of API calls every datagram is finite and without null children, so copying, comparing, printing and serialising it terminate without undefined behaviour; adding a node beneath itself makes copy, comparison, printing and serialisation never return.", "quantifier": "every history of API calls over any number of handles", "why_tests_cant": "termination and absence of cycles over all histories", "anchors": ["src/lamppost/messages/RawDatagram.cpp:RawDatagram::Add", "src/lamppost/messages/RawDatagram.cpp:RawDatagram::Copy", "src/lamppost/messages/RawDatagram.cpp:RawDatagram::operator==", "include/lamppost/messages/RawDatagram.h:operator<<", "src/lamppost/messages/RawDatagram.cpp:RawDatagram::SerializeToStructure"]}
{"id": "C12", "title": "Wire round trip of datagrams is exact up to documented normalisation", "statement": "Serialising any datagram and deserialising the result yields the same datagram except that empty lists, empty dictionaries and values of types other than string/int/double/bool become Empty, and -0.0 becomes +0.0; in particular it is the identity exactly on datagrams without those.", "quantifier": "every datagram", "why_tests_cant": "infinite nested domain, corner cases such as empty containers and negative zero", "anchors": ["src/lamppost/messages/RawDatagram.cpp:RawDatagram::SerializeToStructure", "src/lamppost/messages/RawDatagram.cpp:RawDatagram::DeserializeFromStructure", "schemas/FBDatagram.fbs"]}
{"id": "C13", "title": "Deserialising arbitrary received structures", "statement": "Deserialisation of a received structure yields a finite well-formed datagram, with unknown type codes read as Empty, surplus keys or values ignored and the last of duplicate keys winning; it is undefined behaviour exactly when a field the type code calls for is absent in a part that is visited.", "quantifier": "every structure that can arrive on the wire", "why_tests_cant": "attacker-chosen input; all combinations of absent fields and nesting", "anchors": ["src/lamppost/messages/RawDatagram.cpp:RawDatagram::DeserializeFromStructure"]}
{"id": "C14", "title": "Messages survive the wire", "statement": "Deserialising the bytes of a serialised message yields a message with the same sender and topic strings (any bytes) and the normalised datagram; the result compares equal to the original exactly when the datagram survives normalisation up to equality.", "quantifier": "every message whose bytes are fewer than 2^31 (the limit of FlatBuffers)", "why_tests_cant": "all strings and datagrams", "anchors": ["src/lamppost/messages/Message.cpp:Message::SerializeToBytes", "src/lamppost/messages/Message.cpp:Message::Deserialize", "src/lamppost/messages/Message.cpp:Message::operator=="]}
{"id": "C15", "title": "JSON documents convert to datagrams faithfully", "statement": "Converting a parsed JSON document yields the corresponding tree: booleans, doubles and strings (up to the first NUL) as values, integers saturated to 32 bits, arrays as lists in order, objects as dictionaries with the last duplicate winning; null, empty arrays and empty objects become Empty, and unparsable text yields Empty.", "quantifier": "every JSON document", "why_tests_cant": "all nested documents and integer ranges", "anchors": ["src/lamppost/messages/RawDatagram.cpp:RawDatagram::DeserializeFromJson", "src/lamppost/messages/RawDatagram.cpp:RawDatagram::ParseJsonObject"]}
{"id": "C16", "title": "Printed form of a datagram", "statement": "Streaming any finite datagram terminates and produces the bracketed rendering of its tree, deterministically and without modifying it; the rendering is not injective: different datagrams can print identically.", "quantifier": "every datagram", "why_tests_cant": "all shapes; injectivity is a claim about all pairs", "anchors": ["include/lamppost/messages/RawDatagram.h:operator<<(std::ostream&, const RawDatagram&)"]}
{"id": "C17", "title": "RawBytes holds the concatenation of what was appended", "statement": "After construction and any sequence of Append calls, GetContent/GetSize give exactly the concatenation, in order, of the constructor bytes and all appended chunks; constructing from null raises ArgumentNullException and the caller's buffer is never aliased; implicitly copying a RawBytes object and destroying both frees the same block twice.", "quantifier": "every sequence of appends, every chunk content and size including empty chunks", "why_tests_cant": "all histories; ownership errors are memory safety", "anchors": ["src/lamppost/data/RawBytes.cpp:RawBytes::Append", "src/lamppost/data/RawBytes.cpp:RawBytes::RawBytes", "src/lamppost/data/RawBytes.cpp:RawBytes::~RawBytes"]}
{"id": "C18", "title": "Sender prefixes form a stack", "statement": "PrependSender(s) followed by RemoveSender(s) restores the message; WasSentBySender(s) is true exactly when the sender begins with s followed by '/'; RemoveSender changes nothing otherwise; topic and datagram are never affected; for names without '/', WasSentBySender after PrependSender(a) holds for a and for no other name.", "quantifier": "every message and sender name", "why_tests_cant": "all strings, including prefixes of each other", "anchors": ["src/lamppost/messages/Message.cpp:Message::PrependSender", "src/lamppost/messages/Message.cpp:Message::RemoveSender", "src/lamppost/messages/Message.cpp:Message::WasSentBySender"]}
{"id": "C19", "title": "Topic matching", "statement": "A subscription topic accepts a message topic exactly when the two strings are equal or the subscription topic is the wildcard \"/**/*\"; no other pattern syntax has any effect.", "quantifier": "every pair of strings", "why_tests_cant": "all strings", "anchors": ["src/lamppost/utilities/AntMatcher.cpp:AntMatcher::Matches", "src/lamppost/bus/Bus.cpp:Bus::TopicMatchesPattern"]}
{"id": "C20", "title": "One message reaches exactly the right subscribers, once each, in a fixed order", "statement": "Distributing a message on a bus tree invokes each subscriber whose topic matches and whose bus and all ancestor buses are running exactly once and no other subscriber, in order: a bus's own subscribers by creation, then its child buses by name, recursively.", "quantifier": "every bus tree, set of subscribers and message", "why_tests_cant": "all tree shapes and run flags", "anchors": ["src/lamppost/bus/Bus.cpp:Bus::Distribute"]}
{"id": "C21", "title": "Publication order is delivery order", "statement": "For every schedule of publishing threads and of the bus thread, each subscriber receives messages in the order in which they were published to the root queue, and never the same publication twice.", "quantifier": "every interleaving of publishers, subscribers' creation/deletion and the bus thread", "why_tests_cant": "all schedules", "anchors": ["src/lamppost/bus/Bus.cpp:Bus::Run", "src/lamppost/bus/Bus.cpp:Bus::Distribute", "src/lamppost/bus/Bus.cpp:Bus::Publish"]}
{"id": "C22", "title": "No published message is lost while the bus keeps running", "statement": "At every point of every schedule without Stop and without a throwing callback, every message accepted by Publish is either fully distributed, being distributed, or still pending, in order; none is dropped or invented.", "quantifier": "every schedule", "why_tests_cant": "conservation over all interleavings", "anchors": ["src/lamppost/bus/Bus.cpp:Bus::Run", "src/lamppost/bus/Bus.cpp:Bus::Bus(std::string)"]}
{"id": "C23", "title": "DeleteSubscriber is a barrier", "statement": "Once DeleteSubscriber on the owning bus has returned, the subscriber's callback is never invoked again, under any schedule, unless a new callback is installed and it is registered again; ContainsSubscriber is then false.", "quantifier": "every schedule of deletion against message distribution", "why_tests_cant": "race between deletion and delivery", "anchors": ["include/lamppost/bus/Bus.h:Bus::DeleteManagedResource", "src/lamppost/bus/Bus.cpp:Bus::DeleteSubscriber", "src/lamppost/bus/Subscriber.cpp:Subscriber::Reset"]}
{"id": "C24", "title": "A deleted publisher is inert", "statement": "After DeletePublisher has returned, Publish through that publisher has no effect at any later time, and ContainsPublisher is false; other publishers are unaffected.", "quantifier": "every history", "why_tests_cant": "all later histories", "anchors": ["src/lamppost/bus/Bus.cpp:Bus::DeletePublisher", "src/lamppost/bus/Publisher.cpp:Publisher::Publish", "src/lamppost/bus/Publisher.cpp:Publisher::Reset"]}
{"id": "C25", "title": "Stopping the bus", "statement": "After Stop on the running root bus, under any schedule, at most the message already being distributed is delivered further; no new message distribution begins until Start is called again, and messages drained but not yet distributed are discarded. A Stop issued before Start has no effect on the run begun by Start.", "quantifier": "every schedule and stop point", "why_tests_cant": "stop may hit any point of the distribution", "anchors": ["src/lamppost/bus/Bus.cpp:Bus::Stop", "src/lamppost/bus/Bus.cpp:Bus::Run", "src/lamppost/bus/Bus.cpp:Bus::Start", "src/lamppost/bus/Bus.cpp:Bus::Distribute"]}
{"id": "C26", "title": "Child bus names are unique and stable", "statement": "In every history CreateChildBus succeeds exactly for a nonempty, unused name on an attached bus; GetChildBus returns the very bus created under that name and raises KeyNotFoundException otherwise; failed calls change nothing.", "quantifier": "every history of bus operations", "why_tests_cant": "map refinement over all histories", "anchors": ["src/lamppost/bus/Bus.cpp:Bus::CreateChildBus", "src/lamppost/bus/Bus.cpp:Bus::GetChildBus"]}
{"id": "C27", "title": "Published messages carry their origin", "statement": "A datagram published through a publisher created on a bus is enqueued at the root of that bus tree exactly once, with sender equal to the identifier of that bus, the publisher's topic, and an equal datagram.", "quantifier": "every bus in every tree, every topic and datagram", "why_tests_cant": "all tree depths and histories", "anchors": ["include/lamppost/bus/Bus.h:Bus::CreatePublisher", "src/lamppost/bus/Bus.cpp:Bus::Publish", "src/lamppost/bus/Bus.cpp:Bus::CreateChildBus"]}
{"id": "C28", "title": "Detaching severs a subtree", "statement": "After Detach of a bus, publishing on it or on any bus below it enqueues nothing, no bus strictly below it is served any message until restarted, and creating a child bus on any of them raises ArgumentNullException.", "quantifier": "every bus tree and later history", "why_tests_cant": "recursive effect on every descendant", "anchors": ["src/lamppost/bus/Bus.cpp:Bus::Detach", "src/lamppost/bus/Bus.cpp:Bus::Publish"]}
{"id": "C29", "title": "A bus with a custom publishing function", "statement": "A bus constructed with a publishing function forwards each publication to that function exactly once and immediately; Start returns at once and its own subscribers are never invoked by any publication.", "quantifier": "every history on such a bus", "why_tests_cant": "negative claim over all histories", "anchors": ["src/lamppost/bus/Bus.cpp:Bus::Bus(std::string, std::function)", "src/lamppost/bus/Bus.cpp:Bus::Start"]}
{"id": "C30", "title": "A throwing callback ends the run and drops the batch", "statement": "If a subscriber callback throws, the exception leaves Start; the remaining subscribers of that message and all messages of the same drained batch are never delivered; messages still queued are kept; all bus locks are released.", "quantifier": "every schedule and throw point", "why_tests_cant": "all throw points in all trees", "anchors": ["src/lamppost/bus/Bus.cpp:Bus::Distribute", "src/lamppost/bus/Bus.cpp:Bus::Run"]}
{"id": "C31", "title": "What a callback may safely call", "statement": "From inside a subscriber callback, publishing on any bus and creating or deleting publishers never blocks; creating, deleting or testing for a subscriber on the bus whose callback is running, and creating or looking up a child bus on one of its strict ancestors, block the bus thread forever.", "quantifier": "every state reachable by any schedule in which a callback is running", "why_tests_cant": "self-deadlock depends on lock ownership in every reachable state", "anchors": ["src/lamppost/bus/Bus.cpp:Bus::Distribute", "include/lamppost/bus/Bus.h:Bus::CreateManagedResource"]}
{"id": "C32", "title": "Threads outside callbacks cannot deadlock the bus", "statement": "In every reachable state in which the bus thread is running and is not inside a callback, the bus thread can take its next step, and every lock it holds is released within a bounded number of its own steps once callbacks return.", "quantifier": "every reachable state", "why_tests_cant": "progress over all schedules", "anchors": ["src/lamppost/bus/Bus.cpp:Bus::Run", "src/lamppost/bus/Bus.cpp:Bus::Distribute"]}
{"id": "C33", "title": "Publishing while another thread detaches", "statement": "If no thread detaches or resets concurrently, Publish never throws; a Detach or DeletePublisher falling between the null check and the call makes Publish raise bad_function_call.", "quantifier": "every interleaving of Publish with Detach/DeletePublisher", "why_tests_cant": "a two-instruction race window", "anchors": ["src/lamppost/bus/Bus.cpp:Bus::Publish", "src/lamppost/bus/Publisher.cpp:Publisher::Publish", "src/lamppost/bus/Bus.cpp:Bus::Detach"]}
{"id": "C34", "title": "Action responses reach the request they answer", "statement": "Whenever a request callback is invoked, it is invoked with a response datagram that was sent (via Respond or an equal message) under the invocation id of that very request, on the consumer that issued it.", "quantifier": "every history of requests, responses and deliveries by any number of consumers and providers", "why_tests_cant": "all interleavings of concurrent requests", "anchors": ["src/lamppost/bus/ActionConsumer.cpp:ActionConsumer::ProcessResponse", "src/lamppost/bus/ActionProvider.cpp:ActionProvider::Respond", "include/lamppost/bus/Bus.h:Bus::CreateActionConsumer"]}
{"id": "C35", "title": "A request callback runs at most once", "statement": "As long as invocation ids are not reused, in every history each RequestAsync callback is invoked at most once, however many responses arrive; later responses to the same id have no effect.", "quantifier": "every history, any number of duplicate or late responses", "why_tests_cant": "all histories", "anchors": ["src/lamppost/bus/ActionConsumer.cpp:ActionConsumer::ProcessResponse", "src/lamppost/bus/ActionConsumer.cpp:ActionConsumer::RequestAsync"]}
{"id": "C36", "title": "An answered request is completed", "statement": "If a response carrying an open invocation id is distributed to the consumer's subscriber, the request's callback is invoked with exactly the response payload, and the request is no longer open afterwards; other open requests are untouched.", "quantifier": "every consumer state and response", "why_tests_cant": "all sets of open requests", "anchors": ["src/lamppost/bus/ActionConsumer.cpp:ActionConsumer::ProcessResponse", "include/lamppost/bus/Bus.h:Bus::CreateActionConsumer"]}
{"id": "C37", "title": "What an action provider receives", "statement": "The provider callback is invoked with the request's invocation id and with the whole request envelope {invocationId, request}; the consumer's request datagram is found unchanged under key \"request\" of what the callback receives (not as the datagram itself).", "quantifier": "every request datagram and id", "why_tests_cant": "all payloads", "anchors": ["include/lamppost/bus/Bus.h:Bus::CreateActionProvider", "src/lamppost/bus/ActionConsumer.cpp:ActionConsumer::RequestAsync", "src/lamppost/bus/ActionProvider.cpp:ActionProvider::ProcessRequest"]}
{"id": "C38", "title": "A malformed action message terminates the bus run", "statement": "A message on an action's request or response topic whose datagram is not a dictionary with a string invocationId makes the bus run end with InvalidOperationException; every well-formed one does not.", "quantifier": "every message payload", "why_tests_cant": "all malformed payloads", "anchors": ["include/lamppost/bus/Bus.h:Bus::CreateActionProvider", "include/lamppost/bus/Bus.h:Bus::CreateActionConsumer", "include/lamppost/messages/Datagram.h:Datagram::operator std::string"]}
{"id": "C39", "title": "Synchronous Request returns the response or an empty datagram", "statement": "For every interleaving of the waiting thread, the bus thread and the clock: if the response callback completes before Request returns, Request returns exactly that response; if none arrives in time it returns an Empty datagram; a response arriving after Request returned runs the callback on dead stack variables (undefined behaviour). Until Request has returned or thrown, its thread can always be brought to return; the callback is not called before it is registered.", "quantifier": "every interleaving including lost notifications and timeouts", "why_tests_cant": "races between timeout and response", "anchors": ["src/lamppost/bus/ActionConsumer.cpp:ActionConsumer::Request"]}
{"id": "C40", "title": "Invocation ids", "statement": "Every generated id is non-empty, at most 60 characters, never truncated, has five dash-separated hexadecimal groups with the third group 4xxx and the fourth between 8000 and bffe; because groups are not zero-padded distinct random words can yield the same id.", "quantifier": "every outcome of the random generator", "why_tests_cant": "2^256 outcomes", "anchors": ["include/lamppost/utilities/Uuid.h:Uuid::CreateUuid"]}
{"id": "C41", "title": "RequestAsync without a callback is rejected without side effects", "statement": "RequestAsync with a null callback raises ArgumentNullException, registers nothing and publishes nothing; with a callback it registers exactly one open request and publishes exactly one message on <topic>/request containing the id and the request.", "quantifier": "every consumer state and request", "why_tests_cant": "all states", "anchors": ["src/lamppost/bus/ActionConsumer.cpp:ActionConsumer::RequestAsync"]}
{"id": "C42", "title": "Plugin instances get the lowest free index", "statement": "Instantiating a template names the instance with the template identifier followed by the smallest non-negative integer not in use, creates a child bus of that name, and never reuses the name of a live instance of that template; the search terminates.", "quantifier": "every set of existing instances", "why_tests_cant": "unbounded number of instances; termination", "anchors": ["src/lamppost/plugin/PluginTemplate.cpp:PluginTemplate::Instantiate", "src/lamppost/plugin/PluginTemplate.cpp:PluginTemplate::IndexedInstanceExists"]}
{"id": "C43", "title": "Identifier clashes between templates are refused", "statement": "If the chosen instance identifier is already a child of the parent bus (for example template 'A1' after ten instances of 'A'), Instantiate raises DuplicateKeyException and leaves all instances and buses unchanged.", "quantifier": "every pair of templates and instance sets", "why_tests_cant": "all identifier pairs", "anchors": ["src/lamppost/plugin/PluginTemplate.cpp:PluginTemplate::Instantiate", "src/lamppost/bus/Bus.cpp:Bus::CreateChildBus"]}
{"id": "C44", "title": "Which files are accepted as plugin templates", "statement": "LoadTemplate registers a template exactly when the path exists, its file name has extension 'so' and prefix 'libplugin_', the library opens, exports CreateInfo and CreateInstance, and reports a nonempty identifier; in every other case the set of templates is unchanged and an opened library has been closed again.", "quantifier": "every path and every library behaviour", "why_tests_cant": "all combinations of failure points and all path strings", "anchors": ["src/lamppost/plugin/PluginManager.cpp:PluginManager::LoadTemplate", "src/lamppost/Filesystem.cpp:Filesystem::GetFileExtension", "src/lamppost/Filesystem.cpp:Filesystem::GetFilename"]}
{"id": "C45", "title": "Library handles balance", "statement": "After any sequence of loads and then UnloadTemplates, every handle acquired has been released exactly once, except one unreleased handle for each time a template identifier was loaded again over an existing one; no handle is released twice.", "quantifier": "every sequence of load attempts", "why_tests_cant": "all histories", "anchors": ["src/lamppost/plugin/PluginManager.cpp:PluginManager::LoadTemplate", "src/lamppost/plugin/PluginManager.cpp:PluginManager::UnloadTemplates"]}
{"id": "C46", "title": "Plugin shutdown order", "statement": "Unloading a template stops all of its instances before deinitialising any, stops and deinitialises each live instance exactly once, in identifier order, and only then closes its library; unloading again does nothing.", "quantifier": "every set of instances and templates", "why_tests_cant": "all sets and repeated unloads", "anchors": ["src/lamppost/plugin/PluginTemplate.cpp:PluginTemplate::Unload", "src/lamppost/plugin/PluginManager.cpp:PluginManager::UnloadTemplates"]}
{"id": "C47", "title": "Configured plugins are started in order and failures are contained", "statement": "For a configuration whose \"plugins\" entry is a non-empty list, every dictionary item with a string \"type\" leads, in list order, to one instantiation with its \"configuration\" sub-datagram (Empty if missing); items without type are skipped; an unknown template is logged and does not prevent later plugins. For a known template the call fails with DuplicateKeyException and no effect if the next name is taken among the bus's children; otherwise the child bus is made, and a plugin whose creation gives null, whose creation raises or whose Initialize raises is not started and the call ends with OperationFailedException or with that exception.", "quantifier": "every configuration datagram and template set", "why_tests_cant": "all configurations", "anchors": ["src/lamppost/LampPost.cpp:LampPost::ReadConfigurationFile", "src/lamppost/LampPost.cpp:LampPost::InstantiatePlugin", "src/lamppost/plugin/PluginManager.cpp:PluginManager::InstantiateTemplate"]}
{"id": "C48", "title": "Configurations that abort start-up", "statement": "Reading a configuration raises an uncaught exception exactly when \"plugins\" exists and is an empty array or object, null or scalar, or a non-empty dictionary, or contains an item whose \"type\" is present but not a string (or instantiation itself raises something other than OperationFailedException); a missing or unparsable file starts nothing and raises nothing.", "quantifier": "every configuration document", "why_tests_cant": "all documents", "anchors": ["src/lamppost/LampPost.cpp:LampPost::ReadConfigurationFile", "src/lamppost/messages/RawDatagram.cpp:RawDatagram::GetCount"]}
{"id": "C49", "title": "Run state reporting", "statement": "In every history of the application object, IsStopped() is false, including after Start has returned.", "quantifier": "every history of Start/Stop calls", "why_tests_cant": "all histories", "anchors": ["src/lamppost/LampPost.cpp:LampPost::Start", "src/lamppost/LampPost.cpp:LampPost::IsStopped"]}
{"id": "C50", "title": "Stop requests relative to start-up and shutdown", "statement": "A Stop (signal) arriving between the bus's start and its end makes Start return after tearing down, unless a callback or a plugin being unloaded throws; one arriving before the root bus runs is forgotten and Start does not return on its account; one arriving after teardown dereferences a null bus. An object that has been made and not torn down can be started and its bus then runs, unless setup throws; once asked to stop it can return.", "quantifier": "every arrival point of the stop request", "why_tests_cant": "all arrival points", "anchors": ["src/lamppost/LampPost.cpp:LampPost::Stop", "src/lamppost/LampPost.cpp:LampPost::Start", "src/lamppost/LampPost.cpp:LampPost::Teardown", "src/lamppost/bus/Bus.cpp:Bus::Start"]}
{"id": "C51", "title": "Plugin worker thread discipline", "statement": "In every sequence of Start/Stop calls on an instance, Stop returns only after the worker has finished and at most one worker exists; Stop without a running worker is a no-op; calling Start while a worker is still attached terminates the process. Once Stop has returned, Start makes a new worker and the destructor goes through; nothing happens after the destructor or the termination.", "quantifier": "every sequence of Start/Stop and worker progress", "why_tests_cant": "all histories", "anchors": ["src/lamppost/plugin/PluginInstance.cpp:PluginInstance::Start", "src/lamppost/plugin/PluginInstance.cpp:PluginInstance::Stop"]}
{"id": "C52", "title": "Path helpers", "statement": "For a name f without '/', GetFilename(CombinePaths(r,f)) = f and GetBaseDirectory(CombinePaths(r,f)) = r; GetFilename of a string without '/' or ending in '/' is empty; base + '/' + filename recomposes any path containing '/'; GetFileExtension is the part of the file name after its last '.', empty if there is none.", "quantifier": "every string", "why_tests_cant": "all strings", "anchors": ["src/lamppost/Filesystem.cpp:Filesystem::CombinePaths", "src/lamppost/Filesystem.cpp:Filesystem::GetFilename", "src/lamppost/Filesystem.cpp:Filesystem::GetBaseDirectory", "src/lamppost/Filesystem.cpp:Filesystem::GetFileExtension"]}
{"id": "C53", "title": "Directory listing filter", "statement": "GetDirectoryContents on Unix returns, in directory order, all regular files and all directories (including '.' and '..') when the filter includes File, and nothing when the filter is Directory only.", "quantifier": "every directory and filter", "why_tests_cant": "all directories", "anchors": ["src/lamppost/Filesystem.cpp:Filesystem::GetDirectoryContents"]}
{"id": "C54", "title": "Locating the executable", "statement": "GetPathOfRunningExecutable returns the link target if it is shorter than 1024 bytes and its first 1023 bytes otherwise (cut at the first NUL); it reads uninitialised memory exactly when readlink fails.", "quantifier": "every readlink outcome", "why_tests_cant": "all link lengths and failures", "anchors": ["src/lamppost/Filesystem.cpp:Filesystem::GetPathOfRunningExecutable"]}
{"id": "C55", "title": "Configuration comparison", "statement": "PluginManagerConfiguration a == b is true exactly when the buses are the same and a's search paths are a prefix of b's, false when they differ within the common length or in bus, and reads past the end of b's list when b's paths are a proper prefix of a's; hence it is not symmetric. LampPostConfiguration comparison ignores the configuration files.", "quantifier": "every pair of configurations", "why_tests_cant": "all pairs", "anchors": ["include/lamppost/plugin/PluginManagerConfiguration.h:operator==", "include/lamppost/LampPostConfiguration.h:operator=="]}
{"id": "C56", "title": "Log lines are well-formed and never interleave", "statement": "Under every interleaving of logging threads the output is a sequence of complete lines, each \"[prefix] \" + two spaces per positive indentation level + message, with each thread's lines in its call order.", "quantifier": "every number of threads, messages and every schedule", "why_tests_cant": "all schedules", "anchors": ["src/lamppost/log/Log.cpp:Log::Write", "src/lamppost/log/Log.cpp:Log::WriteSynchronized"]}
{"id": "C57", "title": "Signals during logging", "statement": "If the stop signal's handler runs on a thread that is in the middle of writing a log line, the handler (which logs) blocks forever; at every other point it completes.", "quantifier": "every signal arrival point", "why_tests_cant": "all arrival points", "anchors": ["src/lamppost/platformspecific/xnix/Xnix.cpp:signalHandler", "src/lamppost/LampPost.cpp:LampPost::Stop", "src/lamppost/log/Log.cpp:Log::WriteSynchronized"]}
{"id": "C58", "title": "Frames sent over a link are received as the same message", "statement": "Receiving the frames produced by sending a message yields that message (normalised datagram); the first frame of a multipart message is skipped whatever it contains, remaining frames are concatenated; nothing is received from a missing socket, an empty queue or a single-frame message; frames that together are no message are undefined behaviour.", "quantifier": "every message (whose bytes are fewer than 2^31) and every multipart frame sequence", "why_tests_cant": "all messages and framings", "anchors": ["src/plugins/link/Link.cpp:Link::SendZmqMessage", "src/plugins/link/Link.cpp:Link::ReceiveMessage"]}
{"id": "C59", "title": "A link never echoes what it received", "statement": "A message received over a link is never transmitted by that same link again, on either of its roles, at any later time, while every message not so marked is transmitted once on each enabled role.", "quantifier": "every message and history of a node", "why_tests_cant": "all histories", "anchors": ["src/plugins/link/Link.cpp:Link::Initialize", "src/plugins/link/Link.cpp:Link::Run", "src/lamppost/messages/Message.cpp:Message::WasSentBySender"]}
{"id": "C60", "title": "Forwarding between linked nodes", "statement": "Between two nodes joined by one link every publication whose sender does not begin with the link's name and \"/\" is delivered to the other node exactly once and the exchange stops; with a server and several clients, server publications reach every client, client publications reach only the server; two nodes joined by two parallel links forward a single publication forever.", "quantifier": "every publication and every processing order in the network", "why_tests_cant": "unbounded message propagation", "anchors": ["src/plugins/link/Link.cpp:Link::Run", "src/plugins/link/Link.cpp:Link::Initialize", "src/lamppost/messages/Message.cpp:Message::PrependSender"]}
{"id": "C61", "title": "Link configuration", "statement": "The roles, ports, interface and host used by a link are those found in its configuration under the documented paths with the right type, and the defaults (disabled, 6967/6968 server, 6968/6967 client, '*', 127.0.0.1) otherwise; endpoint strings are tcp://host:port.", "quantifier": "every configuration datagram", "why_tests_cant": "all configurations", "anchors": ["src/plugins/link/Link.cpp:Link::Initialize", "include/lamppost/messages/RawDatagram.h:RawDatagram::Get"]}
{"id": "C62", "title": "Windows service status reporting", "statement": "In every sequence of status reports the checkpoint is 0 for running/stopped and strictly increasing for pending states; stop is accepted in every state but start-pending; the service reports STOPPED before the application has been stopped.", "quantifier": "every sequence of control events", "why_tests_cant": "all sequences", "anchors": ["src/lamppost/platformspecific/windows/service/Service.cpp:Service::ReportStatus", "src/lamppost/platformspecific/windows/service/Service.cpp:Service::ControlHandler", "src/lamppost/platformspecific/windows/service/Service.cpp:Service::Init"]}
{"id": "C63", "title": "Progress of the bus thread, with its exact limits", "statement": "While the bus thread is inside Start and outside callbacks, either it can step or some thread inside Detach can; steps of detaching threads are bounded in number, after them the bus thread can step. Under any schedule a subscribers lock it holds is released after at most 2 own steps per subscriber left plus 2. If no other thread changes the tree, subscriptions or running flags, the message in hand is finished (or the run ended by an exception) within a number of own steps fixed by the state. Between messages it holds no lock.", "quantifier": "every reachable state and schedule", "why_tests_cant": "absence of deadlock and bounds over all schedules", "anchors": ["src/lamppost/bus/Bus.cpp:Bus::Run", "src/lamppost/bus/Bus.cpp:Bus::Distribute", "src/lamppost/bus/Bus.cpp:Bus::Detach"]}
{"id": "C64", "title": "A request callback runs at most once unless it throws", "statement": "As long as invocation ids are not reused and no request callback of the consumer throws, each RequestAsync callback is invoked at most once, and a later response to an answered id invokes nothing and changes no open request. A callback that throws leaves its request open (as every other one), so the next response invokes it again.", "quantifier": "every history, any number of duplicate or late responses", "why_tests_cant": "all histories", "anchors": ["src/lamppost/bus/ActionConsumer.cpp:ActionConsumer::ProcessResponse", "src/lamppost/bus/ActionConsumer.cpp:ActionConsumer::RequestAsync"]}
{"id": "C65", "title": "Instance bus names are never given back", "statement": "Once an instance name has been used for a child bus of a parent, every later instantiation that would choose that name on that parent raises DuplicateKeyException and changes nothing, whatever happened in between; in particular a template that was instantiated, unloaded and loaded again, and one whose CreateInstance threw, cannot be instantiated again on that bus.", "quantifier": "every history of manager operations between the two instantiations", "why_tests_cant": "all intermediate histories", "anchors": ["src/lamppost/plugin/PluginTemplate.cpp:PluginTemplate::Instantiate", "src/lamppost/bus/Bus.cpp:Bus::CreateChildBus", "src/lamppost/plugin/PluginManager.cpp:PluginManager::UnloadTemplates"]}
{"id": "C66", "title": "A null plugin instance makes unloading undefined", "statement": "If CreateInstance returns null the template keeps a null entry; unloading dereferences a null pointer exactly when some template has such an entry, and once one exists every continuation that ends with unloading reaches undefined behaviour.", "quantifier": "every history of manager operations", "why_tests_cant": "all continuations", "anchors": ["src/lamppost/plugin/PluginTemplate.cpp:PluginTemplate::Instantiate", "src/lamppost/plugin/PluginTemplate.cpp:PluginTemplate::Stop"]}
{"id": "C67", "title": "Where publications go in a network of links", "statement": "In any network of nodes joined by links with distinct names per node, a publication that carries no link's mark is delivered exactly once for every route from its node that never leaves a node by the link over which it arrived, with the names of the links it passed in front of its sender; its exchange ends in some processing order if and only if it ends in every order, which is if and only if the lengths of these routes are bounded; so in a tree every node gets every publication exactly once and the exchange stops, and in a ring it never stops.", "quantifier": "every network, publication and processing order", "why_tests_cant": "all topologies and all interleavings, unbounded propagation", "anchors": ["src/plugins/link/Link.cpp:Link::Run", "src/plugins/link/Link.cpp:Link::Initialize", "src/lamppost/messages/Message.cpp:Message::WasSentBySender", "src/lamppost/messages/Message.cpp:Message::PrependSender"]}
{"id": "C68", "title": "How the Windows service ends", "statement": "The service asks the application to stop only after a stop control. A stop control that arrives once the stop event exists is obeyed: in every state from then on, if the service thread and the handler go on, the application is asked, whatever it does; one that arrives and is handled before is lost. If the event cannot be created, the application is neither started nor asked to stop, and the service thread ends. If the service asks the application to stop after the application's root bus has started, the service ends once the application's thread has taken finitely many more steps; if it asks before that, the request is lost and the service never ends although it has reported STOPPED. STOPPED is the last reported status if no control handler call overlaps or follows the final report; otherwise the last status can be STOP_PENDING although the service has ended.", "quantifier": "every interleaving of the service thread, the control handler and the application thread", "why_tests_cant": "the lost request and the stale status need particular schedules; the positive part is about all schedules", "anchors": ["src/lamppost/platformspecific/windows/service/Service.cpp:Service::Init", "src/lamppost/platformspecific/windows/service/Service.cpp:Service::ControlHandler", "src/lamppost/LampPost.cpp:LampPost::Stop"]}
{"id": "C69", "title": "The payload of a message is a snapshot", "statement": "Constructing a message takes the contents its datagram has at that moment; afterwards nothing done with that datagram, with any view of it, with copies of the message or with the datagrams returned by GetDatagram changes the message's sender, topic or payload, and making, copying or reading messages changes none of the client's datagrams.", "quantifier": "every history of datagram operations, message constructions, message copies and GetDatagram calls, every message and every later point", "why_tests_cant": "aliasing between shared nodes must be excluded for all sequences of operations and all view structures", "anchors": ["src/lamppost/messages/Message.cpp:Message::Message", "src/lamppost/messages/Message.cpp:Message::GetDatagram", "src/lamppost/messages/Datagram.cpp:Datagram::Datagram(const Datagram&)"]}
{"id": "C70", "title": "Invocation ids come from a 32-bit seed", "statement": "Each id is a function of one 32-bit seed drawn from the random device, so among any 2^32+1 generated ids at least two are equal, whatever the generator and the formatting make of a seed.", "quantifier": "every generator function and every sequence of seeds", "why_tests_cant": "a collision argument over 2^32 seeds and all generators", "anchors": ["include/lamppost/utilities/Uuid.h:Uuid::CreateUuid"]}
{"id": "C71", "title": "What LoadTemplates loads", "statement": "A new manager searches the configured paths, then the directory of the executable, then the working directory if it differs, then its lib subdirectory. LoadTemplates goes through the regular files and directories of the readable search paths in order; identifiers announced by no usable file keep their template, for any other the template of the last usable file stays, without instances. Every library it opens is closed again or belongs to a registration, but when two usable files announce the same identifier the library of the first is never closed, whatever is called afterwards. It ends normally unless a library's CreateInfo returns null or a replaced template holds a null instance.", "quantifier": "every file system content, every set of libraries, every manager state reachable by calls, every later sequence of calls", "why_tests_cant": "covers all directory contents, duplicate identifiers across paths and arbitrary later calls; a leaked handle is invisible to a test that only checks that plugins work", "anchors": ["src/lamppost/plugin/PluginManager.cpp:14-30", "src/lamppost/plugin/PluginManager.cpp:69-180", "src/lamppost/Filesystem.cpp:63-120", "src/lamppost/Filesystem.cpp:149-170"]}
{"id": "C72", "title": "Who keeps whom alive; providers and consumers are never released", "statement": "A bus, publisher, subscriber, action provider or action consumer exists exactly as long as the client or an existing object has a shared_ptr to it. What a callback captured exists as long as the object with the callback, until the request is answered or the callback is replaced, reset or deleted. A new publisher or subscriber is pointed to by its bus and the client only; once deleted, not by its bus. A provider or consumer and its subscriber and publisher point at each other in a circle: once made they exist for ever, whatever is called afterwards and even when the client holds nothing and the bus is gone. Without providers, consumers and callbacks that captured objects, everything that exists can be reached from what the client holds, so dropping everything releases everything; a callback that captured its own bus is enough to break that.", "quantifier": "every sequence of calls by a client (creating, looking up, resetting, deleting, detaching, requesting, answering, copying and dropping pointers) and every set of captured objects", "why_tests_cant": "a leak has no visible effect in a test that checks delivery; the claim covers every later sequence of calls", "anchors": ["include/lamppost/bus/Bus.h:77-83", "include/lamppost/bus/Bus.h:101-172", "src/lamppost/bus/Bus.cpp:47-81", "src/lamppost/bus/ActionProvider.cpp:20-23", "src/lamppost/bus/ActionConsumer.cpp:18-40"]}
{"id": "C73", "title": "Which calls follow a dangling bus pointer", "statement": "Publishing on a bus the client holds is always defined, also after its parents were released. Publishing through a publisher is undefined behaviour exactly if its bus was released and the publisher was neither reset nor deleted since it was made; holding the bus is enough. Responding through a provider or requesting through a consumer is undefined exactly if its bus was released; unlike for publishers no call makes it safe.", "quantifier": "every sequence of calls before and after the publisher, provider or consumer is made", "why_tests_cant": "use after free often goes unnoticed at run time; the claim covers all orders of release over trees of buses", "anchors": ["include/lamppost/bus/Bus.h:101-113", "src/lamppost/bus/Bus.cpp:8-27", "src/lamppost/bus/Bus.cpp:47-81", "src/lamppost/bus/Bus.cpp:100-111", "src/lamppost/bus/Bus.cpp:204-214", "src/lamppost/bus/Publisher.cpp:19-30"]}
{"id": "C74", "title": "A synchronous Request made inside a bus callback", "statement": "While a bus thread is inside a callback it distributes nothing, and only the thread of its own root bus calls a consumer's response subscriber. So a synchronous Request made from a callback, on a consumer of the same tree of buses, never gets an answer: it sits out its whole timeout, returns an empty datagram, and leaves its request open. A response distributed after that calls the lambda of the finished Request, whose only step is undefined behaviour, so that distribution has no defined end.", "quantifier": "every reachable state of the bus, every callback, every interleaving of all threads while the callback runs and afterwards, every provider behaviour", "why_tests_cant": "a test sees one slow, empty answer; that no schedule and no provider can do better, and that the later response is undefined behaviour, is a statement about all of them", "anchors": ["src/lamppost/bus/ActionConsumer.cpp:22-81", "src/lamppost/bus/Bus.cpp:137-204", "include/lamppost/bus/Bus.h:147-172"]}
{"id": "C75", "title": "The return value of a synchronous Request, end to end", "statement": "What Request returns is empty or the payload of a message with its own invocation id that a root bus accepted before the return; that message was sent by some provider's Respond with this payload unless somebody published it by hand. If a response to the request is distributed from beginning to end before Request returns, the consumer's subscriber being served throughout, and no response with another payload was sent under the id on that topic, then Request returns that payload. Request throws exactly if the publication of its message throws, with the same exception, and then returns nothing.", "quantifier": "every execution of bus and Request together, from the start: all threads, buses, other requests, providers, timings", "why_tests_cant": "the chain crosses two threads, the queue, the distribution and a condition variable; all interleavings of the whole chain are covered", "anchors": ["src/lamppost/bus/ActionConsumer.cpp:22-81", "src/lamppost/bus/ActionProvider.cpp:25-37", "src/lamppost/bus/Bus.cpp:137-204", "include/lamppost/bus/Bus.h:121-172"]}
{"id": "C76", "title": "Which members of the bus are subject to data races", "statement": "The footprint of every step is complete: a step neither depends on nor changes a member outside it, and every mutex it names is held by no other thread. With these footprints, the lists of subscribers, publishers and child buses and the message queue are never raced. The other five shared members (a subscriber's callback, a publisher's function, a bus's publish function, a provider's callback, a consumer's open requests) are raced exactly when one thread replaces the member (SetDatagramCallback, SetMessageCallback, DeleteSubscriber, installing the callback of a new provider or consumer, DeletePublisher, Detach, Reset of a provider, RequestAsync) while another thread replaces or uses it; two deletions of one participant through the same bus are the only exception.", "quantifier": "every reachable state, every two threads, every two enabled steps, every member", "why_tests_cant": "a data race shows in a test only if the schedule hits it and the hardware makes it visible; that no other pair of steps races cannot be tested at all", "anchors": ["include/lamppost/bus/Bus.h:41-172", "src/lamppost/bus/Bus.cpp:18-216", "src/lamppost/bus/ActionConsumer.cpp:22-81", "src/lamppost/bus/Subscriber.cpp:26-53", "src/lamppost/bus/Publisher.cpp:20-31", "src/lamppost/bus/ActionProvider.cpp:20-37"]}
{"id": "C77", "title": "Using the bus without data races", "statement": "Threads that only create buses, subscribers and publishers, publish, respond, start and stop, delete subscribers on the bus they are on, and make requests only from callbacks of the bus thread that serves the consumer, never race. Creating an action provider or consumer on a running bus does race: its subscriber is on the bus before its callback is set, and any delivery to it in between conflicts. Two threads that call RequestAsync on one consumer race in every state, and a request from a client thread races with the delivery of any response to that consumer.", "quantifier": "every reachable state, every two threads, every two steps", "why_tests_cant": "absence of races in all schedules is not testable; the presence depends on a window of a few instructions", "anchors": ["include/lamppost/bus/Bus.h:122-172", "src/lamppost/bus/ActionConsumer.cpp:22-40", "src/lamppost/bus/ActionConsumer.cpp:73-81", "src/lamppost/bus/Bus.cpp:181-194"]}
{"id": "C78", "title": "The SysInfo plugin on the bus", "statement": "Every request that reaches SysInfo's action provider is answered exactly once while its callback runs, and once the request has been completely distributed the fixed reply has been handed over once, under the request's id and on the response topic, unless the provider's publisher was deleted or its bus detached; such a race is also the only way the callback throws, and then with bad_function_call. SysInfo's subscriber, however, ends the bus's thread with InvalidOperation on the first message on \"/sysinfo\" that is not a string, so while SysInfo is served every message on that topic that gets completely distributed is a string. Deinitialize does not remove the action provider: afterwards a request still enters the plugin's callback. A bus thread inside one of the two callbacks can always answer, return or throw, unless it is inside the publication of its answer.", "quantifier": "every execution of the bus machine with any number of instances and other clients", "why_tests_cant": "whether an answer is lost depends on deletions and detaches between any two steps; that every foreign message type stops the bus is a statement about all payloads", "anchors": ["src/plugins/sysinfo/SysInfo.cpp:17-68", "src/lamppost/bus/ActionProvider.cpp:25-37", "src/lamppost/bus/Bus.cpp:141-200"]}
{"id": "C79", "title": "Code of plugin libraries that have been closed", "statement": "At shutdown the plugin libraries are closed while the root bus still exists; it is destroyed with the application object. A library that has deleted every publisher and subscriber it made is never entered again after it was closed, whatever its callbacks captured and although its action providers and consumers cannot be deleted. A publisher or subscriber it forgot still exists when the library is closed, and (unless callbacks captured something) is destroyed by the closed library's code, in the very step in which the last pointer to the root bus is let go and in no other. A bus a plugin created cannot be removed and is always destroyed after the library was closed.", "quantifier": "every execution: any number of libraries, instances and calls of plugins before, between and after closings", "why_tests_cant": "whether anything is left over depends on all calls ever made by the library; the failure happens in a destructor after the test's subject is gone, and only with really unloaded code", "anchors": ["src/lamppost/LampPost.cpp:23-46", "src/lamppost/plugin/PluginManager.cpp:32-36", "src/lamppost/plugin/PluginManager.cpp:181-198", "include/lamppost/bus/Bus.h:66-83", "include/lamppost/bus/Bus.h:101-172", "src/plugins/sysinfo/SysInfo.cpp:61-68"]}
{"id": "C80", "title": "How the program ends", "statement": "The program exits with success, and prints its last line, exactly if LampPost::Start returned; then the root bus was started, ended, detached, the plugins unloaded and the bus dropped, in this order, and a signal had come while the root bus ran. The only other end is by an exception leaving the constructor, Setup, the reading of configuration files, a bus callback or a plugin being unloaded; main prints its text exactly if it left Start and is a std::runtime_error, and then ends by std::terminate. In that case the root bus is never dropped and, unless the exception came from unloading, no plugin has been stopped or deinitialised. The program does not get stuck in between; a signal before the application object exists or after the root bus was dropped dereferences a null pointer, at any other time not.", "quantifier": "every execution of main with signals and exceptions at any point", "why_tests_cant": "all interleavings of signals with main, and exceptions from any callback", "anchors": ["src/main.cpp:14-52", "src/lamppost/LampPost.cpp:38-46", "src/lamppost/LampPost.cpp:111-150", "src/lamppost/bus/Bus.cpp:127-174", "include/lamppost/exceptions/Exception.h:12"]}
{"id": "C81", "title": "What received bytes mean", "statement": "Deserialising a block of bytes yields exactly the message that the bytes are under the FlatBuffers format (root table, vtables, offsets, strings, vectors as written in the schemas), as a new object in any heap, leaving existing datagrams alone. A block that is not a message in that sense is undefined behaviour: nothing is verified before the offsets in it are followed. A block is at most one message, with values of the C++ types, and its datagram is nested at most a fifth as deep as there are bytes.", "quantifier": "every block of bytes", "why_tests_cant": "all byte strings, including hostile ones", "anchors": ["src/lamppost/messages/Message.cpp:Message::Deserialize", "src/lamppost/messages/RawDatagram.cpp:RawDatagram::DeserializeFromStructure", "schemas/FBDatagram.fbs", "schemas/FBMessage.fbs"]}
{"id": "C82", "title": "Few bytes can make an exponentially large message", "statement": "For every n there are 64+24n bytes that are a message whose datagram is a full binary tree of depth n; deserialising them creates 2^(n+1)-1 datagram objects. Received bytes therefore do not bound the memory of the message they are.", "quantifier": "every n below 2^26", "why_tests_cant": "a statement about every n, and about bytes that no sender of this program writes", "anchors": ["src/lamppost/messages/Message.cpp:Message::Deserialize", "src/lamppost/messages/RawDatagram.cpp:RawDatagram::DeserializeFromStructure"]}
{"id": "C83", "title": "What is written is a message", "statement": "The bytes written for a message are, under the FlatBuffers format, a message with its sender, its topic and its normalised datagram, provided they are fewer than 2^31. There are more than 28 of them for each datagram in the tree. Messages with the same bytes have the same sender, topic and normalised datagram.", "quantifier": "every message in any heap", "why_tests_cant": "all strings and datagrams; the layout depends on sizes, alignment and shared vtables", "anchors": ["src/lamppost/messages/Message.cpp:Message::SerializeToBytes", "src/lamppost/messages/RawDatagram.cpp:RawDatagram::SerializeToStructure"]}
{"id": "C84", "title": "The function a bus thread is executing can be replaced under it", "statement": "While a callback runs, the std::function objects it was called through (the subscriber's, and the provider's or the stored request's) keep their content unless one of these happens: a callback of the subscriber is set, the subscriber is deleted through another bus than its own, the construction of the provider or consumer owning the subscriber is finished, the called provider is reset, or a request with the answered id is made. None of these waits for the callback: each goes through at any moment while it runs, leaving the bus thread inside a function that its owner no longer holds. Only deletion through the subscriber's own bus waits.", "quantifier": "every reachable state, callback and execution", "why_tests_cant": "needs another thread's call inside the window of a running callback; what then happens in the destroyed closure is undefined and often unnoticed", "anchors": ["src/lamppost/bus/Subscriber.cpp:Subscriber::Receive", "include/lamppost/bus/Bus.h:Bus::DeleteManagedResource", "src/lamppost/bus/ActionProvider.cpp:ActionProvider::Reset", "src/lamppost/bus/ActionConsumer.cpp:ActionConsumer::Request"]}
{"id": "C85", "title": "Teardown detaches the root bus under the plugins' running workers", "statement": "The program dies of an exception leaving a plugin's Run exactly when its worker goes on inside a publication whose function has been taken away: its publisher deleted before the function was called, or the bus it has got to detached. This never happens before Teardown begins, nor in any execution in which every worker is stopped before a bus is detached and before its publisher is deleted; unloading the templates first and detaching the root bus afterwards is such an order. LampPost::Teardown detaches first: whenever some running worker publishes on the root bus or a bus below it and no thread holds a child-list lock, an execution of that worker and the ending thread alone kills the program; the cause is then always a detached bus, never a deleted publisher. Joining a stopped worker always ends unless the program dies: the worker can go on until Run returns, and takes at most 3n+2 steps, n being the publications of a round.", "quantifier": "every set of workers, bus tree, list of plugins to unload, and interleaving of workers, ending thread and other threads", "why_tests_cant": "the window is between a worker's test of the function and its call; a test run ends cleanly almost always", "anchors": ["src/lamppost/LampPost.cpp:LampPost::Teardown", "src/lamppost/plugin/PluginInstance.cpp:PluginInstance::Stop", "src/lamppost/plugin/PluginTemplate.cpp:PluginTemplate::Unload", "src/lamppost/plugin/PluginManager.cpp:PluginManager::UnloadTemplates", "src/plugins/sysinfo/SysInfo.cpp:SysInfo::Run", "src/plugins/link/Link.cpp:Link::Run"]}
{"id": "C86", "title": "A link's sockets are never used after they are closed", "statement": "While Initialize and Deinitialize of a link alternate, Start comes when it is initialised and has no worker, Initialize comes when there is none, and Stop at any time, then in every interleaving of the calling thread, the worker and the bus thread: each use of a ZMQ socket is of one that was created and has not been closed, by one thread at a time; sockets are closed once and not while in use; a context is terminated once, after all its sockets have been closed; no null subscriber is dereferenced and no running thread destroyed. When Deinitialize has returned, all sockets and contexts are released and the callback is no longer called, even if the worker is still running. Every call can end. A message that is to be sent is handed once to each publishing socket the link has, the server's first, and one that is not to none; each round of the running worker asks each subscribing socket it has once, the server's first. Out of order: Initialize twice loses the first context and the sockets made anew for ever; Deinitialize when not initialised dereferences a null pointer; Start without Stop ends the program; Initialize while the worker of an earlier start is running lets two threads use one socket.", "quantifier": "every sequence of calls, roles, failures of zmq_ctx_new and zmq_socket, messages, and interleaving of the three threads", "why_tests_cant": "a use after close needs the worker or the bus thread between its test of a pointer and its use while Deinitialize runs; ZMQ does not report it reliably", "anchors": ["src/plugins/link/Link.cpp:Link::Initialize", "src/plugins/link/Link.cpp:Link::Deinitialize", "src/plugins/link/Link.cpp:Link::Run", "src/lamppost/plugin/PluginInstance.cpp:PluginInstance::Start", "src/lamppost/plugin/PluginInstance.cpp:PluginInstance::Stop", "include/lamppost/bus/Bus.h:Bus::DeleteManagedResource"]}
{"id": "C87", "title": "On Windows: which paths are directories, what a listing holds, and where plugins are looked for", "statement": "The Windows branches separate paths with the backslash only: a path without one has no name, directory or extension, and LoadTemplate refuses it. IsDirectory is true of every path whose attributes cannot be read, so of missing ones, and IsFile false. A listing of a directory that can be searched holds its entries but \".\" and \"..\", of the kinds asked for, in order, each once, and leaves one find handle open; of one that cannot, it is decided by the uninitialised find buffer: nothing, the name left there, or a read past the end. The path of the running executable always has 1024 characters, the last ones uninitialised; its directory is right iff none of those is a backslash, and LoadLibrary then gets exactly the existing files plugin_*.dll of that directory; otherwise it gets nothing but the executable's own path, and normally nothing. The working directory is right iff its path has less than 1024 characters.", "quantifier": "For all answers of the operating system, all paths and names, and all contents of the memory the calls leave unwritten.", "why_tests_cant": "What unwritten memory holds differs between compilers, builds and runs; tests see the one content (often zeros) that hides the fault, and the project's tests run on Unix.", "anchors": ["src/lamppost/Filesystem.cpp:10-16", "src/lamppost/Filesystem.cpp:32-38", "src/lamppost/Filesystem.cpp:67-93", "src/lamppost/Filesystem.cpp:128-134", "src/lamppost/Filesystem.cpp:156-162", "src/lamppost/Filesystem.cpp:172-239", "src/lamppost/plugin/PluginManager.cpp:6-30", "src/lamppost/plugin/PluginManager.cpp:69-79", "src/lamppost/plugin/PluginManager.cpp:164-180"]}
{"id": "C88", "title": "Installing and removing the Windows service: handles, texts, and which program is started", "statement": "Every run of the service program closes each handle it opened once, in reverse order, also when it throws, which it does exactly if the module's path or the control manager cannot be had, before it has done anything. The first argument alone decides, in any case of letters; any other argument starts the dispatcher. \"Installed\" is printed exactly if the service was created and \"deleted\" exactly if it was marked or removed, so over any history of runs one more installation than deletion was announced exactly while the service is installed; no other service is touched. The path registered is the executable's iff it is shorter than 260 characters. The control manager starts the executable if its path has no space; if it has one, a file at the part before the first space is started instead.", "quantifier": "For all command lines, all answers of the operating system to each call, all databases of services, all histories of runs and removals, all executable paths.", "why_tests_cant": "The calls need administrator rights and a real service database, and their failures cannot be provoked one by one; the wrong program is started only where somebody placed one.", "anchors": ["src/lamppost/platformspecific/windows/service/Service.cpp:46-149", "src/lamppost/platformspecific/windows/service/Service.cpp:274-301", "src/lamppost/platformspecific/windows/service/main.cpp:12-50"]}
{"id": "C89", "title": "Signals on the three platforms: handled for good, once, or not at all", "statement": "On every platform the process ends with success exactly if LampPost::Start returned, everything has then been torn down in order, and a signal the platform's code hooks has come. On Linux SIGINT and SIGTERM never end the process on their own once main has hooked them, however often they come. On Windows each of SIGINT, SIGTERM and SIGABRT is handled once; the second of its kind ends the process on the spot in whatever phase, with the plugins still loaded, so at most four signals ever arrive. On macOS nothing is hooked: every signal ends the process on the spot, the root bus never ends, and main never reaches its last line. A signal that reaches the handler is undefined behaviour exactly between hooking and the making of the object, or after its bus was dropped. abort and std::terminate end the process; on Windows the SIGABRT handler runs first unless used up, which is undefined behaviour exactly if the object was not made or its bus dropped - so always when an exception leaves the constructor.", "quantifier": "For all platforms and all interleavings of main's steps with signals of any kind and aborts on any thread.", "why_tests_cant": "Signals may arrive between any two steps, and three operating systems are involved.", "anchors": ["src/lamppost/platformspecific/windows/Windows.cpp:4-25", "src/lamppost/platformspecific/xnix/Xnix.cpp:4-28", "src/lamppost/platformspecific/osx/Osx.cpp:4-7", "src/main.cpp:11-52", "CMakeLists.txt:93-103"]}
{"id": "C90", "title": "Links when calls of ZeroMQ fail", "statement": "What the receiver gets to read is a function of which calls of SendZmqMessage failed: a message whose payload frame was taken is read after all the topic frames that wait in the socket but the first, and is not read at all if no topic frame waits. So a payload that fails leaves its topic frame behind, and the next message, reported as sent, arrives with a stray \"A\" in front; if together they are shorter than 1093 bytes, deserialising it is undefined behaviour in the receiving program. The sender is told success exactly if the payload frame was taken and has at most INT_MAX bytes, even if the topic frame failed and nobody hears the message. Messages after a completed send are not affected by what failed before. On the receiving side, whatever fails, a call takes frames from the front of the queue, never past the end of a message, and hands over all but the first; if zmq_recvmsg fails within a message, the part taken so far is handed over as the message and the next call drops the first of the remaining frames; if zmq_msg_init fails within a message, the loop repeats for as long as it fails.", "quantifier": "For all sequences of sends and payloads, all subsets of calls that fail, all queues of frames and all sequences of failures of the receiving calls.", "why_tests_cant": "The failures (out of memory, interrupted calls, terminated contexts) cannot be provoked one by one, and their consequences appear one message later in another process.", "anchors": ["src/plugins/link/Link.cpp:190-242", "src/plugins/link/Link.cpp:244-277", "src/plugins/link/Link.cpp:73-97"]}
{"id": "C91", "title": "Whole processes joined by links", "statement": "Take any number of processes, each with its whole bus, its threads and its links, and let the messages the links send travel between them in any order. The messages the processes distribute, in order, are those of an execution of the message-by-message network of C60 and C67 in which exactly the messages accepted from others than links are published, in the order of their acceptance. If the links are on the air from before the first distribution, no root bus discards anything and everything comes to rest, then nothing is pending in that execution. So: with a server and any number of clients, every message published on the server is distributed there and once on every client, marked, every message published on a client there and once on the server, and nothing else is distributed; at every earlier moment what was distributed is part of this; in a tree of processes every unmarked message is distributed exactly once on each; in a cycle, for example two processes joined by two links, the processes never come to rest once a message was published. Between connected sockets of opposite roles, no message is stuck on the way: at every moment each one can be taken by its link and is then published there.", "quantifier": "For all networks of processes, all interleavings of all their threads and of the arrival of messages, all messages.", "why_tests_cant": "The interleavings of the threads of several processes and of the messages between them are unbounded; that a cycle never comes to rest is not observable in finite time.", "anchors": ["src/plugins/link/Link.cpp:Link::Initialize", "src/plugins/link/Link.cpp:Link::Run", "src/lamppost/bus/Bus.cpp"]}
{"id": "C92", "title": "The program from its command line to its end", "statement": "Of the command line only the first argument matters; it is the configuration file. If it names a file that can be read, then when the bus starts the libraries have been loaded, then every plugin the file asks for has been attempted, in order and with its configuration, and each attempt succeeded or failed with OperationFailedException; if the \"plugins\" entry is of the wrong kind or a \"type\" is no string, the bus never starts and the program never exits normally. The program exits normally only after a signal that came while the bus ran; then exactly the instances that were made were stopped and deinitialised, each once and before its library was closed, and every library was closed except those of templates that were replaced. If it ends by an exception, in start-up or while the bus runs, nothing that was made is stopped or deinitialised; the text is printed exactly if it is a std::runtime_error. While the bus runs, a signal lets the program end normally, unless CreateInstance returned null: then the end is undefined. Without an argument no plugin is ever attempted and no exception comes before the bus runs. Start-up is undefined exactly if a library in a search directory returns no plugin info. A signal is undefined exactly after the handlers are installed and before the LampPost object is made, or once its members have been cleared at the end.", "quantifier": "For all command lines, file contents, directories, plugin libraries, behaviours of CreateInstance and Initialize, and all interleavings of signals with the program's steps.", "why_tests_cant": "Command lines, files, plugin sets and the moments of signals are unbounded; that the bus never starts, or that nothing is ever stopped, concerns all executions.", "anchors": ["src/main.cpp:main", "src/main.cpp:HandleShutdownSignal", "src/lamppost/LampPost.cpp:LampPost::LampPost", "src/lamppost/LampPost.cpp:LampPost::Start", "src/lamppost/LampPost.cpp:LampPost::ReadConfigurationFile", "src/lamppost/plugin/PluginManager.cpp"]}
{"id": "C93", "title": "Which plugins run, and under which names", "statement": "If every instance can be created and initialised, no two plugins' names can clash, and the configuration file can be read, then when the bus starts exactly the plugins asked for whose type was loaded are running, in the order of the file and each with its configuration: the k-th of a type, counted from 0, is named by the type followed by k and has a child bus of the root of that name; for each other plugin asked for there is one error line with its type and the text of its configuration, in the order of the file. Unless the \"plugins\" entry is of the wrong kind or a \"type\" is no string, no exception comes before the bus has started, and it starts unless a library gives no info; the end of the program is defined. Names cannot clash if no library's identifier ends in a digit; otherwise they can, and start-up then fails. SysInfo and Link can be created and initialised with every configuration, SysInfo sends exactly if \"send-datagram\" is the Boolean true, and their names never clash; so all this holds where only they are installed.", "quantifier": "For all command lines, file contents, directories, sets of libraries and interleavings of signals with the program's steps.", "why_tests_cant": "The number and order of plugins asked for, their configurations and the libraries found are unbounded; that names never clash concerns all pairs of types and all numbers.", "anchors": ["src/lamppost/LampPost.cpp:LampPost::InstantiatePlugin", "src/lamppost/LampPost.cpp:LampPost::ReadConfigurationFile", "src/lamppost/plugin/PluginTemplate.cpp:PluginTemplate::Instantiate", "src/lamppost/plugin/PluginManager.cpp:PluginManager::InstantiateTemplate", "src/plugins/sysinfo/SysInfo.cpp:SysInfo::Initialize", "src/plugins/link/Link.cpp:Link::Initialize", "include/lamppost/plugin/PluginInstance.h"]}
{"id": "C94", "title": "Publishing on one process reaches the subscribers on all", "statement": "Several whole processes, each with its own bus, its threads and its link plugins, exchange messages. On each of them, a subscriber that is registered, with its buses running, from before the first distribution is called exactly once for each message for its topic that the root bus accepted, in the order of acceptance, with the message or its data. If the links join the processes in a tree, then once all has come to rest every message published on any process has been handed exactly once to every subscriber for its topic on every process, and nothing else has. Of a server and its clients, whatever numbers their buses have: a subscriber gets what is published on its own process unchanged, and what is published on a peer once, with the sender marked by the link; clients get nothing from other clients. At every moment of every execution, whatever subscribers and callbacks come and go, no subscriber has been called for a message it is not owed, or twice for one.", "quantifier": "all networks, numbers of processes, publishers and subscribers, all interleavings of the threads of all processes and of the messages on the way", "why_tests_cant": "Exactly-once delivery from every publisher to every subscriber is about all interleavings of bus threads, link threads and messages on the way in all processes; a duplicate or a loss may need one particular order of steps.", "anchors": ["src/lamppost/bus/Bus.cpp:Bus::Distribute", "src/lamppost/bus/Subscriber.cpp:Subscriber::Receive", "src/plugins/link/Link.cpp:Link::Initialize", "src/plugins/link/Link.cpp:Link::Run"]}
{"id": "C95", "title": "The configurations decide who is connected to whom", "statement": "What a link sends as a server comes to another link exactly if the first has the server role, the second the client role, the first's publishing port is the second's subscribing port, and the second's host leads to where the first is bound; what it sends as a client exactly if it has the client role, the other the server role, its publishing port is the other's subscribing port and its host leads to the other. Nothing comes to one link twice. Processes with one link each are a server and its clients, as C94 describes, exactly if the configurations make one process a server only, the others clients only, exchange the ports and name the server's host. Programs started with config/default_server.cfg and, any number of them, config/default_client.cfg on one computer each run SysInfo0 and Link0, and together are a server and its clients. A link that enables both roles and sets nothing else is its own peer: every unmarked message published on its process is distributed there three times. Every such connection ends at a link that listens in the opposite role.", "quantifier": "all configurations, numbers of processes and links, networks (which addresses lead where), and all orders in which messages are processed", "why_tests_cant": "Which of all pairs of configurations connect, and that no pair connects twice, is a statement over all settings, ports and hosts; a test starts one constellation.", "anchors": ["src/plugins/link/Link.cpp:Link::Initialize", "src/plugins/link/Link.cpp:Link::BindZmqSocket", "src/plugins/link/Link.cpp:Link::ConnectZmqSocket", "config/default_server.cfg", "config/default_client.cfg"]}
{"id": "C96", "title": "Actions work between processes", "statement": "In every network of processes joined by links: whenever a request callback is entered, it belongs to the latest request that its consumer made under the invocation id, the message carries this id and the datagram passed on, and a provider of some process responded with exactly these, or some thread published such an envelope; whenever a provider's callback is entered, a consumer of some process made the request under the id passed on, or some thread published such an envelope. Between a server and its clients, and in every tree of processes, a provider's callback is called exactly once for every request published on its process or its peers (in a tree: on any process), in the order in which its root bus accepted them; and if an answer to an open request is published on the consumer's process or a peer (in a tree: on any process), the request's callback is called exactly once.", "quantifier": "all networks, all interleavings of all threads of all processes and of the messages between them, all requests, responses and invocation ids", "why_tests_cant": "A test follows one request over one link in one interleaving. That no execution of any number of processes hands an answer to a wrong callback, calls it twice or loses it is a statement over all networks and schedules.", "anchors": ["src/lamppost/bus/ActionProvider.cpp:ActionProvider::Respond", "src/lamppost/bus/ActionProvider.cpp:ActionProvider::ProcessRequest", "src/lamppost/bus/ActionConsumer.cpp:ActionConsumer::RequestAsync", "src/lamppost/bus/ActionConsumer.cpp:ActionConsumer::ProcessResponse", "src/plugins/link/Link.cpp:Link::Initialize", "src/plugins/link/Link.cpp:Link::Run"]}
{"id": "C97", "title": "The synchronous Request between processes", "statement": "In every network of processes joined by links, what a call of Request returns is empty or the payload of a message with its invocation id that its process accepted before; a provider of some process responded with exactly this id and payload, or some thread published such an envelope. If it did not time out, it is such an answer. If an answer is published on the caller's process or (between a server and its clients) on a peer, or (in a tree) on any process, no other answer is published under the id on the topic, and everything has come to rest before Request returns, it returns this answer. A Request made inside a callback of the same tree of buses always sits out its timeout, returns an empty datagram and leaves its request open, whoever answers. If the answer arrives after Request is over, the bus thread of the process is stuck inside the lambda, whose only step uses locals that are gone; the processes never come to rest again.", "quantifier": "all networks, all interleavings of all threads of all processes, of the messages between them, and of the steps, wakeups and timeouts inside Request", "why_tests_cant": "The moment at which an answer from another process arrives relative to the timeout decides between the right value, an empty value and undefined behaviour; no test enumerates these interleavings.", "anchors": ["src/lamppost/bus/ActionConsumer.cpp:42-71", "src/lamppost/bus/ActionConsumer.cpp:ActionConsumer::ProcessResponse", "src/lamppost/bus/ActionProvider.cpp:ActionProvider::Respond", "src/plugins/link/Link.cpp:Link::Initialize", "src/plugins/link/Link.cpp:Link::Run"]}
{"id": "C98", "title": "What the SysInfo plugin sends and writes", "statement": "In every execution with any number of SysInfo instances, each with lambdas of its own: on each bus thread their lambdas write one log line for each string received (\"Got it: \" and the string) and each action request (\"Received action request: \" and the request's text as in C16), in order, with the instance's identifier as prefix, and nothing else; the line is written before the request is answered and before the lambda returns or throws, so at most one is missing, that of the lambda just running. The worker of an instance sends only if its configuration has the boolean true at \"send-datagram\" (anything else, or nothing, means no), and is otherwise silent. It does whole rounds: it publishes \"Hello Bus!\" on the instance's publisher and, once Publish has returned, writes \"Sent datagram\"; only the last round may be unfinished. Each publication that returns has been handed to the root's queue exactly once, with the bus's name and the publisher's topic, unless the publisher was deleted or the bus detached before. A started worker can always begin its next round; after Stop it begins at most one more, and none if it was between two rounds.", "quantifier": "all configurations, instances, messages and requests, and all interleavings of all bus threads, workers, log calls, Start and Stop", "why_tests_cant": "Order and number of the lines depend on how several threads interleave, and on where the worker is when Stop arrives.", "anchors": ["src/plugins/sysinfo/SysInfo.cpp:SysInfo::Initialize", "src/plugins/sysinfo/SysInfo.cpp:SysInfo::Run", "src/lamppost/plugin/PluginInstance.cpp:PluginInstance::Start", "src/lamppost/plugin/PluginInstance.cpp:PluginInstance::Stop"]}
{"id": "C99", "title": "What the plugin manager's log says", "statement": "Writing to the log changes nothing of what the plugin manager does. LoadTemplate writes nothing about a file that is missing or not named like a plugin library; otherwise it writes \"Now loading: \" and the path before it opens the file, and then lines that are determined by what it finds, of which the last gives the verdict: \"Failed to acquire library handle.\", \"Info methods missing\", \"Identifier empty\", \"Creation methods missing\" or \"Load successful\". \"Load successful\" is written exactly if LoadTemplate returns true, which it does exactly for usable files, and after the template of the same identifier that is replaced, if any, has been stopped and deinitialised. A library that was opened and is refused is closed directly after the line that says why. If LoadTemplate, LoadTemplates or UnloadTemplates runs into undefined behaviour, the lines lead up to the file or the template at which it does, and there is no verdict on it. LoadTemplates writes its heading, then each search path followed by the lines of each file in it, in order. UnloadTemplates writes nothing without templates, else its heading and each identifier before that template's instances are stopped and deinitialised and its library is closed. InstantiateTemplate writes its lines before it does anything; they say whether the manager's bus is used and whether the template exists, not whether an instance is made. In every history without undefined behaviour there are as many lines \"Acquired library handle\" as libraries opened and as many lines \"Load successful\" as templates registered.", "quantifier": "all histories of calls of the plugin manager, all files, libraries, search paths and outcomes of CreateInstance", "why_tests_cant": "The agreement of lines and actions is claimed for every combination of files, libraries and previous history, among them libraries that are broken in each possible way.", "anchors": ["src/lamppost/plugin/PluginManager.cpp:PluginManager::LoadTemplate", "src/lamppost/plugin/PluginManager.cpp:PluginManager::LoadTemplates", "src/lamppost/plugin/PluginManager.cpp:PluginManager::UnloadTemplates", "src/lamppost/plugin/PluginManager.cpp:PluginManager::InstantiateTemplate"]}
