{"id": "C01", "title": "Wire round trip", "statement": "Marshalling any Header, Message, RouteReq or RouteRes and unmarshalling the bytes into a fresh value succeeds and yields an equal value (empty and nil byte slices identified, nil and present nested messages distinguished).", "quantifier": "every value of the four message types whose encoded size fits a Go int and whose timestamp is an int64", "why_tests_cant": "The value space is unbounded (arbitrary byte strings, lengths crossing every varint boundary, all int64 timestamps); examples only sample it.", "anchors": ["router/router.pb.go: Header/Message/RouteReq/RouteRes Marshal, MarshalTo, MarshalToSizedBuffer, Unmarshal, encodeVarintRouter"]}
{"id": "C02", "title": "Size is exact and Marshal never writes outside its buffer", "statement": "Size() equals the number of bytes Marshal returns, and the backwards writer, given a buffer of Size() bytes, fills exactly the whole buffer without ever indexing outside it.", "quantifier": "every value of the four message types, and every buffer at least as long as Size()", "why_tests_cant": "An off-by-one between Size and the backward writer shows only at particular lengths (varint boundaries), an unbounded family.", "anchors": ["router/router.pb.go: Size, sovRouter, encodeVarintRouter, MarshalToSizedBuffer"]}
{"id": "C03", "title": "Unmarshal is total on hostile input", "statement": "Unmarshal of an arbitrary byte sequence by any of the four message types always terminates and returns either a value or an error; it never reads outside the input and never panics.", "quantifier": "all byte strings of length below 2^63", "why_tests_cant": "A peer controls the bytes; no finite corpus covers all byte strings, and the failure is a crash of the node.", "anchors": ["router/router.pb.go: (Header|Message|RouteReq|RouteRes).Unmarshal, skipRouter"]}
{"id": "C04", "title": "Unknown fields are ignored", "statement": "Inserting any well-formed fields with unknown field numbers (varint, 64-bit, length-delimited, 32-bit, or balanced groups of such fields, arbitrarily nested) between, before or after the known fields does not change the decoded value.", "quantifier": "every encoded message, every insertion point at a field boundary, every sequence of unknown well-formed fields", "why_tests_cant": "Forward compatibility quantifies over fields that do not exist yet and over arbitrarily deep groups.", "anchors": ["router/router.pb.go: Unmarshal default branches, skipRouter"]}
{"id": "C05", "title": "Repeated scalar fields: last one wins; nested messages merge", "statement": "Decoding the concatenation of two encodings equals merging the second value into the first: non-default scalar fields of the second replace those of the first, nested messages are merged recursively.", "quantifier": "every pair of values of each message type", "why_tests_cant": "It is a homomorphism law over all pairs of values; gRPC peers and proxies may legally split messages so.", "anchors": ["router/router.pb.go: Unmarshal"]}
{"id": "C06", "title": "Truncated routing frames are rejected", "statement": "Every non-empty strict prefix of the encoding of a RouteReq or RouteRes is rejected with an error instead of being decoded to a different message.", "quantifier": "every RouteReq/RouteRes value and every cut position", "why_tests_cant": "Every cut point of every message must be rejected.", "anchors": ["router/router.pb.go: RouteReq.Unmarshal, RouteRes.Unmarshal, Message.Unmarshal"]}
{"id": "C07", "title": "Wire-type confusion is rejected", "statement": "If a byte sequence carries a known field number with a wire type different from the declared one, or field number zero, or a stray end-group tag, decoding returns an error, whatever precedes (well-formed) or follows it.", "quantifier": "every prefix that decodes, every known field number, every wrong wire type, every suffix", "why_tests_cant": "The combination of field, wire type, prefix and suffix is unbounded.", "anchors": ["router/router.pb.go: Unmarshal tag dispatch"]}
{"id": "C08", "title": "Mailbox queue is FIFO without loss or duplication", "statement": "Under every interleaving of any number of concurrent Push calls with one consumer, the sequence of values returned by Pop is a prefix of one global order of the pushed values; that order contains each started-and-linearised push exactly once, and pushes of one goroutine appear in program order.", "quantifier": "all numbers of producers, all values, all interleavings of the atomic steps of Push and Pop", "why_tests_cant": "Races between the head swap and the next-pointer store depend on schedules a test cannot enumerate.", "anchors": ["lib/mpsc/mpsc.go: New, Push, Pop"]}
{"id": "C09", "title": "Mailbox queue never loses a wake-up", "statement": "Whenever a consumer that only pops after receiving from C is idle and a fully pushed value is reachable in the queue, either C holds a token or some Push still has a signalling step to execute which will deposit one; hence with no Push in flight a non-empty queue always has a token in C.", "quantifier": "all interleavings of producers with a receive-then-pop consumer", "why_tests_cant": "A lost wake-up is a liveness failure visible only in rare schedules.", "anchors": ["lib/mpsc/mpsc.go: setCount, Push, Pop", "core/actor/actor_runtime_impl.go: Runtime.update"]}
{"id": "C10", "title": "Queue Count and Empty are exact at rest", "statement": "When no Push or Pop is in progress, Count() equals the number of pushed but not popped values and Empty() is true exactly when that number is zero.", "quantifier": "all histories of pushes and pops, all interleavings", "why_tests_cant": "Requires an invariant over all histories, including transiently negative counters.", "anchors": ["lib/mpsc/mpsc.go: Count, Empty, setCount"]}
{"id": "C11", "title": "A completed Push is visible to the next Pop", "statement": "If some Push has returned and its value has not been popped, then Pop does not return nil and Empty does not return true.", "quantifier": "all interleavings of producers and the consumer", "why_tests_cant": "Fails only when another producer is suspended between its two atomic steps.", "anchors": ["lib/mpsc/mpsc.go: Push, Pop, Empty"]}
{"id": "C12", "title": "Unbounded channel preserves order and loses nothing", "statement": "The values received from Get() are, in order, a prefix of the values Put; everything else is still buffered, under any interleaving of Put, receive and Load.", "quantifier": "all interleavings and lengths of Put, receive and Load operations", "why_tests_cant": "Order inversion between backlog and channel needs specific schedules.", "anchors": ["lib/unbounded/unbounded.go: Put, Load, Get, Len"]}
{"id": "C13", "title": "Unbounded channel never stalls a well-behaved consumer", "statement": "If every receive is followed by Load, then whenever values are buffered and no consumer is between its receive and its Load, a value is available on the channel.", "quantifier": "all interleavings of producers and consumers following the receive-then-Load protocol", "why_tests_cant": "Stall freedom is a property of all reachable states.", "anchors": ["lib/unbounded/unbounded.go: Put, Load", "lib/pubsub/ps_channel.go: addHandlers"]}
{"id": "C14", "title": "A future is resolved at most once and every observer sees that value", "statement": "Of all Complete calls on one future only the first takes effect; every callback registered with Then, before or after completion, is started exactly once after completion and receives exactly the winning result; none is started while the future is pending.", "quantifier": "all interleavings of Complete and Then calls by any number of goroutines", "why_tests_cant": "Depends on races between Then and Complete.", "anchors": ["core/actor/actor_reenter_impl.go: Future.Then, Future.Complete, Future.IsCompleted"]}
{"id": "C15", "title": "Chained futures are resolved", "statement": "The future returned by Then is completed with the same result after its callback has run, so that callbacks chained on it also run.", "quantifier": "all interleavings of Then and Complete", "why_tests_cant": "Holds in the usual order of calls and fails only when completion wins the race with Then.", "anchors": ["core/actor/actor_reenter_impl.go: Future.Then"]}
{"id": "C16", "title": "Handler chain order and short circuit", "statement": "Executing a chain runs the before handlers in order, then the handler, then the after handlers; it stops right after the first step that returns an error and returns that error, and returns nil only if all steps ran; a panicking step stops the chain at that step.", "quantifier": "all chains (any number of before/after handlers), all handler behaviours and initial states", "why_tests_cant": "Quantifies over arbitrary handlers and lengths.", "anchors": ["core/actor/actor_chain.go: DefaultChain.Execute"]}
{"id": "C17", "title": "One handler at a time", "statement": "At any moment at most one of an actor's message handlers, timer callbacks and re-entry actions is executing.", "quantifier": "all interleavings of senders, timers, re-entry completions and shutdown", "why_tests_cant": "Mutual exclusion over all schedules.", "anchors": ["core/actor/actor_runtime_impl.go: Runtime.update"]}
{"id": "C18", "title": "Mailbox order and at-most-once handling", "statement": "The messages an actor handles are handled in the order they entered its mailbox, each at most once; nothing is handled that was not accepted, and a message accepted by Received is either handled, being handled, or still in the mailbox.", "quantifier": "all interleavings of senders with the actor loop and with shutdown", "why_tests_cant": "Quantifies over schedules and unbounded histories.", "anchors": ["core/actor/actor_runtime_impl.go: Received, update", "lib/mpsc/mpsc.go"]}
{"id": "C19", "title": "Each accepted message releases its waiter exactly once", "statement": "Every message whose handling has finished has decremented its wait group exactly once, whether its handler returned nil, returned an error, panicked, or no handler was registered for the event; the wait group never goes negative.", "quantifier": "all handler outcomes, all histories of messages sharing wait groups", "why_tests_cant": "A missing or double Done on one rare path blocks a caller forever or panics.", "anchors": ["core/actor/actor_runtime_impl.go: Received, update", "lib/warpwaitgroup/warpwaitgroup.go: Add, Done"]}
{"id": "C20", "title": "A failing handler does not stop the actor", "statement": "After a handler returns an error or panics, or an unknown event arrives, the actor still handles every later message exactly as if the failing message had been a no-op on the actor loop.", "quantifier": "all message sequences and all handler behaviours", "why_tests_cant": "Quantifies over arbitrary histories after the failure.", "anchors": ["core/actor/actor_runtime_impl.go: update, defaultRecovery"]}
{"id": "C21", "title": "A closed actor accepts nothing", "statement": "Once an actor's closing has been observed (its closed state left 0), Received rejects every later message with an error, does not touch the message's wait group and does not enqueue it; the closed state only moves 0 to 1 to 2.", "quantifier": "all later calls of Received, all interleavings", "why_tests_cant": "Must hold for every later call in every schedule.", "anchors": ["core/actor/actor_runtime_impl.go: Received, update, Exit"]}
{"id": "C22", "title": "Exit drains the mailbox", "statement": "When Exit returns, every message previously accepted by Received has been handled completely.", "quantifier": "all interleavings of Exit with senders and the actor loop", "why_tests_cant": "Depends on the race between Received's closed check, the queue push and the emptiness poll.", "anchors": ["core/actor/actor_runtime_impl.go: Exit, update (checkClose), Received"]}
{"id": "C23", "title": "Exit is idempotent", "statement": "Calling Exit a second time on an actor (for instance Unregister followed by node shutdown) is harmless.", "quantifier": "all orders of Exit calls", "why_tests_cant": "Second-call behaviour depends on the history.", "anchors": ["core/actor/actor_runtime_impl.go: Exit", "core/node/system_impl.go: Unregister, Exit"]}
{"id": "C24", "title": "Event registration is first-wins", "statement": "Registering a handler chain for an event succeeds exactly when the event is not registered yet; a rejected registration leaves all handlers unchanged, and dispatch uses the first registered chain for the event.", "quantifier": "all sequences of OnEvent calls and all events", "why_tests_cant": "Quantifies over all registration histories.", "anchors": ["core/actor/actor_runtime_impl.go: OnEvent, update"]}
{"id": "C25", "title": "A re-entrant call resolves exactly once with its outcome", "statement": "The future returned by ReenterCall is completed at most once; if the call succeeded and the caller's context was not cancelled first, the continuation sees the caller's wrapper with the callee's response; if the call failed it sees the error; if the context ends first it sees the context error; and once the call has finished and the re-entry action has run the future is completed.", "quantifier": "all interleavings of the call, context cancellation and the actor loop", "why_tests_cant": "Three goroutines race on two futures and a queue.", "anchors": ["core/actor/actor_runtime_impl.go: ReenterCall, update", "core/actor/actor_reenter_impl.go"]}
{"id": "C26", "title": "Re-entrant continuations run inside the actor", "statement": "A callback registered with Then on the future of ReenterCall never runs concurrently with another handler of the same actor.", "quantifier": "all interleavings of continuations and handlers", "why_tests_cant": "Needs a schedule in which the spawned callback goroutine overlaps the loop.", "anchors": ["core/actor/actor_runtime_impl.go: ReenterCall", "core/actor/actor_reenter_impl.go: Complete"]}
{"id": "C27", "title": "A cancelled timer never fires again", "statement": "After CancelTimer returns, the timer's callback is not invoked any more.", "quantifier": "all interleavings of ticks, cancellation and the actor loop", "why_tests_cant": "Depends on ticks already queued and on the start-up goroutine.", "anchors": ["core/actor/actor_runtime_impl.go: OnTimer, CancelTimer, update", "core/actor/actor_timer.go: Stop"]}
{"id": "C28", "title": "Timer requests with legal arguments do not crash", "statement": "OnTimer with non-negative due time and interval (0 documented as: fire once), and CancelTimer at any later moment, never crash the process.", "quantifier": "all dueTime, interval >= 0, all moments of cancellation", "why_tests_cant": "The crash needs a particular argument or a particular moment.", "anchors": ["core/actor/actor_runtime_impl.go: OnTimer, CancelTimer", "core/actor/actor_timer.go: Stop, NewTimerInfo"]}
{"id": "C29", "title": "Timer callbacks are no more frequent than requested", "statement": "In every execution the k-th firing (k from 1) of a timer registered at time s with due time d > 0 and interval i > 0 occurs no earlier than s + d + (k-1) * i, and with d = 0 no earlier than s + k * i; no callback fires once the actor has started closing.", "quantifier": "all due times, intervals, delays of the loop and tick coalescing", "why_tests_cant": "Quantifies over unbounded runs and arbitrary scheduling delays.", "anchors": ["core/actor/actor_runtime_impl.go: OnTimer, update", "core/actor/actor_timer.go"]}
{"id": "C30", "title": "Sender identity is preserved along a call chain", "statement": "However many actors forward a message with Call, the request header keeps the id and type of the first actor that sent it, names the immediately preceding actor type, and carries the event and target of the latest hop; no other header field, nor the body, is altered.", "quantifier": "all chains of hops of any length", "why_tests_cant": "Chains are unbounded.", "anchors": ["core/actor/actor_runtime_impl.go: Call, ReenterCall", "core/node/system_impl.go: Call, Send"]}
{"id": "C31", "title": "Self-call is refused", "statement": "A message whose original sender is actor A is never put into A's mailbox: a call chain that comes back to its origin fails with ErrSelfCall instead of deadlocking, and leaves the wait group unchanged.", "quantifier": "all call chains", "why_tests_cant": "Cyclic chains of arbitrary length.", "anchors": ["core/actor/actor_runtime_impl.go: Received", "core/node/system_impl.go: ErrSelfCall"]}
{"id": "C32", "title": "Target resolution", "statement": "Call and Send reach: for a plain id, the local actor with that id if there is one, otherwise exactly the node the address book records for that id; for '?', an actor of the requested type recorded in the address book; for '~', a local actor of the type whenever one exists, otherwise as '?'; and in every failing case an error is returned and nothing is delivered.", "quantifier": "all system states, symbols, ids and types, all choices made by map iteration and random sampling", "why_tests_cant": "Quantifies over all cluster states.", "anchors": ["core/node/system_impl.go: Call, Send, findLocalOrWildcardActor", "core/addressbook/addressbook_impl.go: GetByID, GetWildcardActor"]}
{"id": "C33", "title": "A root call returns only after the whole local call tree has finished", "statement": "A Call made outside any handler, if it returns nil without its internal 5 s timeout having fired, returns only after its handler and every message transitively sent with the same wrapper by those handlers has been handled; meanwhile a nested Call never blocks its handler.", "quantifier": "all call trees, all interleavings", "why_tests_cant": "Trees and schedules are unbounded.", "anchors": ["core/node/system_impl.go: localCall", "core/actor/actor_runtime_impl.go: Received, update", "lib/warpwaitgroup/warpwaitgroup.go"]}
{"id": "C34", "title": "A failed call is reported to its caller", "statement": "If the target's handler did not run to completion (timeout, remote routing failure, panic, unknown event, handler error), Call returns a non-nil error.", "quantifier": "all outcomes of local and remote calls", "why_tests_cant": "Failure paths depend on timing and on remote behaviour.", "anchors": ["core/node/system_impl.go: localCall, handleRemoteCall", "core/node/system_acceptor.go: Routing", "core/actor/actor_runtime_impl.go: update"]}
{"id": "C35", "title": "Actor ids are unique on a node", "statement": "At most one live actor per id exists on a node: of several Register calls with one id at most one succeeds, and the others fail with an error and leave no trace.", "quantifier": "all interleavings of Register and Unregister calls", "why_tests_cant": "Check-then-act races need particular schedules.", "anchors": ["core/node/system_impl.go: Register, Unregister", "core/addressbook/addressbook_impl.go: Register"]}
{"id": "C36", "title": "Global quantity limits are respected", "statement": "If every registration of a type carries global limit L > 0, at most L actors of that type are registered in the cluster at any time.", "quantifier": "all interleavings of registrations on any number of nodes", "why_tests_cant": "The count check and the insertion are separate steps on different machines.", "anchors": ["core/node/system_impl.go: Register", "core/addressbook/addressbook_impl.go: GetActorTypeCount"]}
{"id": "C37", "title": "Node-unique types are unique per node", "statement": "A type declared NodeUnique has at most one actor per node.", "quantifier": "all sequences of registrations and all builder settings", "why_tests_cant": "Enforcement depends on an unrelated option.", "anchors": ["core/node/system_impl.go: Register"]}
{"id": "C38", "title": "Address-book records agree with each other", "statement": "After any execution in which an id is held by one node at a time, operations on one id do not overlap, and Unregister is issued by the owning node with the registered weight, while operations on different ids and nodes interleave command by command: once all operations have returned, an id has an address record exactly when it is a member of the set of its type, the record names the registering node and type, and each node's total weight and per-type counters equal the sum over its live registrations.", "quantifier": "all interleavings of the store commands of any number of operations by any number of nodes", "why_tests_cant": "Invariant over unbounded histories in a shared store.", "anchors": ["core/addressbook/addressbook_impl.go: Register, Unregister"]}
{"id": "C39", "title": "Unregister charges the owner", "statement": "Removing an actor's record restores the weight of the node that hosted it and changes no other node's weight.", "quantifier": "all pairs of nodes and records", "why_tests_cant": "Requires a record owned by another node at the moment of removal.", "anchors": ["core/addressbook/addressbook_impl.go: Unregister", "core/node/system_impl.go: Unregister, Call"]}
{"id": "C40", "title": "Crash-consistency of registration", "statement": "If a node crashes between any two store commands of Register or Unregister, the surviving records still satisfy: every member of a type set has an address record, and no node is charged less weight than its surviving records carry.", "quantifier": "all crash points in all histories", "why_tests_cant": "Crash points inside the pipeline cannot be injected by unit tests exhaustively.", "anchors": ["core/addressbook/addressbook_impl.go: Register, Unregister"]}
{"id": "C41", "title": "Lookup by id answers from the latest registration", "statement": "GetByID returns this node's address for an id this address book registered and has not unregistered, otherwise exactly the record in the store, and an error when there is none or the id is empty.", "quantifier": "all histories and ids", "why_tests_cant": "Quantifies over histories mixing local cache and shared store.", "anchors": ["core/addressbook/addressbook_impl.go: GetByID, GetByType"]}
{"id": "C42", "title": "Wildcard picks the least loaded sampled actor", "statement": "GetWildcardActor returns one of the sampled members of the requested type whose node has a stored total weight, and no sampled member sits on a node of smaller stored total weight; it errs exactly when no sampled member's node has a stored total weight below the largest int. With at most ten members of the type the choice is least loaded among all of them.", "quantifier": "all store states, all random samples", "why_tests_cant": "Quantifies over all weights and samples.", "anchors": ["core/addressbook/addressbook_impl.go: GetWildcardActor"]}
{"id": "C43", "title": "Low-weight node lookup returns a lightest node", "statement": "GetLowWeightNodeForActor returns a registered node whose total weight is minimal among all registered nodes.", "quantifier": "all store states and all map iteration orders", "why_tests_cant": "The Go map iteration order is randomised per range loop.", "anchors": ["core/addressbook/addressbook_impl.go: GetLowWeightNodeForActor"]}
{"id": "C44", "title": "Clear removes exactly this node's records", "statement": "After a successful Clear no type set, address record, node entry or weight of this node remains, and the records, memberships and weights of other nodes are unchanged.", "quantifier": "all cluster states satisfying the address-book invariant", "why_tests_cant": "Quantifies over all cluster states.", "anchors": ["core/addressbook/addressbook_impl.go: Clear"]}
{"id": "C45", "title": "A node can re-register after Clear", "statement": "After Clear, registering an id that this node held before succeeds and lookups no longer answer from the old registration.", "quantifier": "all histories ending in Clear", "why_tests_cant": "State kept outside the store survives Clear.", "anchors": ["core/addressbook/addressbook_impl.go: Clear, Register, GetByID"]}
{"id": "C46", "title": "Distributed lock gives mutual exclusion within its lease", "statement": "At no time do two holders both believe they hold the lock with an unexpired lease; Unlock by anyone but the current holder (wrong, empty or stale value) never releases the lock.", "quantifier": "all interleavings of Lock, Unlock, time passing and crashes of any number of clients", "why_tests_cant": "Schedules with expiry and stale unlocks are unbounded.", "anchors": ["lib/dismutex/dismutex.go: Lock, Unlock"]}
{"id": "C47", "title": "A crashed lock holder does not block others for ever", "statement": "If a holder never unlocks, the lock becomes available once its lease time has elapsed, and Lock either acquires it or returns an error after a bounded number of attempts.", "quantifier": "all crash points and arrival times", "why_tests_cant": "Needs all crash points and clock values.", "anchors": ["lib/dismutex/dismutex.go: Lock"]}
{"id": "C48", "title": "A channel delivers each message at most once and in order", "statement": "For one topic and one channel, messages reach the channel's queue in publication order per consumer, each message at most once over all consumers of the channel, and only messages published to that topic.", "quantifier": "all interleavings of publishers and consumers of a channel", "why_tests_cant": "Interleavings of publish, group read, delivery and acknowledgement are unbounded.", "anchors": ["lib/pubsub/ps_topic.go: Pub", "lib/pubsub/ps_channel.go: loop, addHandlers"]}
{"id": "C49", "title": "Every channel of a topic receives every message", "statement": "A message published after a channel has subscribed is eventually delivered to that channel, whatever other channels do.", "quantifier": "all interleavings of several channels on one topic", "why_tests_cant": "One channel's acknowledgement must not affect another's backlog; needs a particular schedule.", "anchors": ["lib/pubsub/ps_channel.go: addHandlers", "lib/pubsub/ps_topic.go: Sub"]}
{"id": "C50", "title": "Published messages survive a consumer crash", "statement": "A message read by a consumer that crashes before handing it to the actor's queue is delivered later to another or restarted consumer.", "quantifier": "all crash points of the consumer", "why_tests_cant": "Crash point between read and delivery.", "anchors": ["lib/pubsub/ps_channel.go: loop, addHandlers"]}
{"id": "C51", "title": "One topic object per name", "statement": "Concurrent GetOrCreateTopic calls for one name all return the same topic and create it once.", "quantifier": "all interleavings of any number of callers", "why_tests_cant": "Double-checked locking race.", "anchors": ["lib/pubsub/ps_mgr.go: GetOrCreateTopic, CreateTopic, GetTopic"]}
{"id": "C52", "title": "Cron field matching is exact", "statement": "For every field written as '*', a value, a list, a range, and their stepped forms within the legal bounds, an expression matches a time value exactly when that value belongs to the documented set (range endpoints inclusive, step counted from the start of the range, wrap-around ranges allowed, weekday 7 meaning Sunday).", "quantifier": "all legal expressions and all time values", "why_tests_cant": "The language of expressions is infinite.", "anchors": ["lib/timer/timer_express.go: parseExpress, IsMatch"]}
{"id": "C53", "title": "Cron parsing terminates on every string", "statement": "Building a timer expression from an arbitrary string returns a matcher or an error.", "quantifier": "all strings", "why_tests_cant": "Non-termination hides in unusual strings.", "anchors": ["lib/timer/timer_express.go: parseExpress"]}
{"id": "C54", "title": "Custom request fields can be read back", "statement": "After any sequence of successful WithReqCustomFields calls, reading a key with the type it was stored with returns the last value stored under that key; other keys, and all header fields other than Custom, are unaffected.", "quantifier": "all sequences of writes, all keys and value kinds", "why_tests_cant": "Quantifies over all histories and values.", "anchors": ["router/msg/msg_custom_map.go: WithReqCustomFields, GetReqCustomField", "router/msg/msg_utils.go: isJSONSerializable"]}
{"id": "C55", "title": "A rejected custom field changes nothing", "statement": "If WithReqCustomFields or WithResCustomFields reports an error (unserialisable value or malformed existing data), the message's custom data is the same as before.", "quantifier": "all values and existing contents", "why_tests_cant": "Needs all failing inputs.", "anchors": ["router/msg/msg_custom_map.go: WithReqCustomFields, WithResCustomFields", "router/msg/map_custom_object.go"]}
{"id": "C56", "title": "Copying a request header copies all fields", "statement": "WithReqHeader makes the new message carry every field of the given header.", "quantifier": "all header values", "why_tests_cant": "Quantifies over all headers.", "anchors": ["router/msg/msg.go: WithReqHeader"]}
{"id": "C57", "title": "Remote calls respect the concurrency cap and leak no slot", "statement": "At most MaxConcurrentCalls invocations are in flight; every call attempt gives back its slot on every path (success, error, timeout, cancelled while waiting), so at rest all slots are free.", "quantifier": "all interleavings of calls and outcomes", "why_tests_cant": "A leak on one path accumulates over time.", "anchors": ["lib/grpc/client.go: CallWait, Call"]}
{"id": "C58", "title": "Every reported span is accounted for", "statement": "Each span passed to the reporter is forwarded to the sampler exactly once and in order, or counted as dropped; spans queued before Close are processed before Close returns, and Close takes effect once.", "quantifier": "all interleavings of Report, the worker and Close", "why_tests_cant": "Queue-full and close races.", "anchors": ["lib/tracer/slow_reporter.go: Report, Close, processQueue"]}
{"id": "C59", "title": "Entity version chain reaches the newest version", "statement": "Repeatedly asking for the next version visits every registered version newer than the starting one in increasing order.", "quantifier": "all sets and orders of registered versions", "why_tests_cant": "Depends on registration order.", "anchors": ["core/entity.go: GetVerStrategy, GetNextVersion"]}
{"id": "C60", "title": "File name splitting", "statement": "The extension plus the real name recompose the file name, the extension contains exactly the part from the last dot, for every name containing a dot.", "quantifier": "all strings", "why_tests_cant": "Quantifies over all strings.", "anchors": ["utils/file: GetFileExt, GetFileRealName"]}
{"id": "C61", "title": "Error codes compare by code", "statement": "Cause applied to any wrapped or plain error recovers the code it was created with, equality of codes is equality of numbers, and OK is never confused with a registered code.", "quantifier": "all codes and errors", "why_tests_cant": "Quantifies over all errors.", "anchors": ["lib/errcode/errcode.go: New, Cause, Equal, EqualError"]}
{"id": "C62", "title": "Tokens round-trip and do not forge", "statement": "Parsing a token created for a non-empty id returns that id, creating a token for an empty id fails, and Parse accepts a string only if its signature part verifies under the signing key for exactly the signed header and claims.", "quantifier": "all ids and all candidate token strings, relative to an abstract signature function", "why_tests_cant": "Quantifies over all strings an attacker may present.", "anchors": ["lib/token/token.go: Create, Parse"]}
{"id": "C63", "title": "Actor ids are unique in the cluster", "statement": "If an id is registered on one node, registering the same id on another node fails while the first registration is live.", "quantifier": "all cluster states and all pairs of nodes", "why_tests_cant": "Needs several nodes sharing a store.", "anchors": ["core/node/system_impl.go: Register", "core/addressbook/addressbook_impl.go: Register"]}
{"id": "C64", "title": "A subscription callback sees every message of its channel", "statement": "After Sub returns, every message that reaches the actor's mailbox through the subscription is handled by the callback given to Sub.", "quantifier": "all published events, all interleavings of Sub with incoming messages", "why_tests_cant": "Depends on event names chosen by publishers and on the race with handler registration.", "anchors": ["core/actor/actor_runtime_impl.go: Sub, OnEvent, update", "lib/pubsub/ps_channel.go: addHandlers"]}
{"id": "C65", "title": "A stopped background task stays stopped and runs as one loop", "statement": "A periodic task of the timer service has at most one loop goroutine executing its handler, also after its handler panicked and after any sequence of start and stop calls.", "quantifier": "all sequences of start, stop, ticks and panics", "why_tests_cant": "Depends on histories of panics and restarts.", "anchors": ["lib/timer/timer_tick.go: start, startTickTask", "lib/timer/timer.go: stop"]}
{"id": "C66", "title": "A handler sees the event of the call that delivered the message", "statement": "When a message delivered by Call(ctx, id, type, event, wrapper) is handled, the handler chain run is the one of that event and the header it sees names that event and target.", "quantifier": "all interleavings of concurrent calls that share a wrapper", "why_tests_cant": "The wrapper is shared by pointer; the window between two calls is short.", "anchors": ["core/node/system_impl.go: Call, localCall", "core/actor/actor_runtime_impl.go: update"]}
{"id": "C67", "title": "An actor that unregisters itself from its own code does not deadlock", "statement": "A handler, timer callback or re-entry action may unregister its own actor: the call returns.", "quantifier": "all actor states and all behaviours of other goroutines", "why_tests_cant": "Absence of any schedule that lets the call return cannot be observed by running some of them.", "anchors": ["core/node/system_impl.go: Unregister", "core/actor/actor_runtime_impl.go: Exit, update"]}
{"id": "C68", "title": "A wrapper whose Call has returned can be used for another Call", "statement": "After a Call returned, using the same wrapper for a new Call waits for the new call's handlers and never crashes the process.", "quantifier": "all histories of calls and all interleavings with the goroutines left by earlier calls", "why_tests_cant": "The goroutine left behind by the first call has to wake up in a small window.", "anchors": ["core/node/system_impl.go: Call, localCall", "lib/warpwaitgroup"]}
{"id": "C69", "title": "Publishing never crashes the publisher", "statement": "Pub returns nil or an error for every topic name and event, whether or not the node has subscribed to the topic before.", "quantifier": "all topic names and all histories of topic creation", "why_tests_cant": "Quantifies over all histories of topics.", "anchors": ["core/node/system_impl.go: Pub", "lib/pubsub/ps_mgr.go: GetTopic", "lib/pubsub/ps_topic.go: Pub"]}
{"id": "C70", "title": "Clear by a restarted node removes what a crash left behind", "statement": "If a node crashes in the middle of Register or Unregister and its next process calls Clear, no record, membership or weight of the node remains and those of other nodes are unchanged.", "quantifier": "all crash points in all consistent states", "why_tests_cant": "Requires a crash between two particular store commands.", "anchors": ["core/addressbook/addressbook_impl.go: Clear, Register, Unregister"]}
{"id": "C71", "title": "Unregistering on a node that does not host the actor leaves it alone", "statement": "Unregister(id, type) called on a node that does not run the actor removes nothing that belongs to an actor running on another node: that actor stays resolvable.", "quantifier": "all cluster states and all pairs of nodes", "why_tests_cant": "Needs several nodes sharing a store.", "anchors": ["core/node/system_impl.go: Unregister", "core/addressbook/addressbook_impl.go: Unregister"]}
{"id": "C72", "title": "Overlapping Unregister calls do not crash the process", "statement": "No interleaving of Register and Unregister calls makes a node's process panic.", "quantifier": "all interleavings of Register and Unregister calls, store failures and crashes of other nodes", "why_tests_cant": "The two calls have to read the actor map in a small window.", "anchors": ["core/node/system_impl.go: Unregister", "core/actor/actor_runtime_impl.go: Exit"]}
{"id": "C73", "title": "The lock protects its section until Unlock", "statement": "Between the return of a successful Lock and the holder's Unlock no other Lock on the same key succeeds.", "quantifier": "all interleavings of Lock, Unlock and time", "why_tests_cant": "Needs a holder slower than the lease.", "anchors": ["lib/dismutex/dismutex.go: Lock, Unlock", "core/addressbook/addressbook_impl.go: Clear"]}
{"id": "C74", "title": "A restarted node can take its lock at once", "statement": "If the store answers every request and no living process holds the key, Lock succeeds.", "quantifier": "all crash points of earlier holders and all arrival times", "why_tests_cant": "Needs a crash inside the locked section followed by a restart.", "anchors": ["lib/dismutex/dismutex.go: Lock", "core/addressbook/addressbook_impl.go: Clear"]}
{"id": "C75", "title": "A rejected custom object changes nothing", "statement": "If WithReqCustomObject or WithResCustomObject reports an error, the message's custom data is the same as before.", "quantifier": "all objects and existing contents", "why_tests_cant": "Needs all failing inputs together with all previous contents.", "anchors": ["router/msg/map_custom_object.go: WithReqCustomObject, WithResCustomObject"]}
{"id": "C76", "title": "Writing custom fields never crashes", "statement": "WithReqCustomFields and WithResCustomFields on a message that has a header return, whatever its custom data is, and report problems as an error.", "quantifier": "all existing custom data, including data received from other nodes, and all attributes", "why_tests_cant": "Quantifies over all documents a peer may send.", "anchors": ["router/msg/msg_custom_map.go: WithReqCustomFields, WithResCustomFields, WithReqCustomFieldsMap"]}
{"id": "C77", "title": "Building a message does not modify the headers it is given", "statement": "No sequence of builder calls changes a header object that existed before the builder was created.", "quantifier": "all sequences of builder calls and all headers", "why_tests_cant": "Aliasing shows only for particular sequences of calls.", "anchors": ["router/msg/msg.go: WithReqHeader, WithResHeader", "router/msg/msg_custom_map.go", "router/msg/map_custom_object.go"]}
{"id": "C78", "title": "The client keeps every connection it opened", "statement": "Every connection the gRPC client opened is in its table (so later calls use it and it can be closed), whether it was opened at start or by the first call to an address.", "quantifier": "all interleavings of calls; all address lists", "why_tests_cant": "Needs two first calls to the same address within one dial time; the loss shows only as leaked connections.", "anchors": ["lib/grpc/client.go: CallWait, Init"]}
{"id": "C79", "title": "A call option of a wrong type is reported", "statement": "If an option passed to a remote call is not a gRPC call option, the call returns an error, nothing is sent, and the process goes on.", "quantifier": "all states of the client, both call forms", "why_tests_cant": "The option type is chosen at run time; no test passes a wrong one.", "anchors": ["lib/grpc/client.go: CallWait, Call"]}
{"id": "C80", "title": "The reporter gives back every span reference it takes", "statement": "Every reference the reporter takes on a span (by retaining it) is given back once the span has been processed or dropped.", "quantifier": "all interleavings of Report, the worker and Close", "why_tests_cant": "Leaks on the drop path only show in pooled allocation under load.", "anchors": ["lib/tracer/slow_reporter.go: Report, processQueue"]}
{"id": "C81", "title": "The reported queue length is right at rest", "statement": "When no Report or Close is under way and the worker is idle, the queue length gauge equals the number of queued items; otherwise it differs only by the operations under way.", "quantifier": "all interleavings of Report, the worker and Close", "why_tests_cant": "The counter and the channel are updated separately; drift needs rare interleavings.", "anchors": ["lib/tracer/slow_reporter.go: Report, sendCloseEvent, processQueue"]}
{"id": "C82", "title": "No operation on a periodic task brings the process down", "statement": "Starting, stopping and a panicking handler never crash the process: a panic is caught and reported, a stop at any moment is safe.", "quantifier": "all sequences of start, stop, ticks and panics", "why_tests_cant": "A stop in the short time before the first tick, or a task outside a service, is not in any test.", "anchors": ["lib/timer/timer_tick.go: startTickTask", "lib/timer/timer.go: stop"]}
{"id": "C83", "title": "NextTrigger names the next firing", "statement": "While a timer is active NextTrigger returns the time before which it will not fire next, and a time later than its last firing.", "quantifier": "all timers, all moments", "why_tests_cant": "The answer goes wrong only after the first tick, and depends on timing.", "anchors": ["core/actor/actor_timer.go: NextTrigger, NewTimerInfo, Reset", "core/actor/actor_runtime_impl.go: OnTimer"]}
{"id": "C84", "title": "A successful Reset leaves the timer running at the new interval", "statement": "If Reset(interval) returns true the timer is active and goes on ticking until it is cancelled, and its later firings are at least the new interval apart, counted from the Reset.", "quantifier": "all timers in any state, all intervals, all moments", "why_tests_cant": "Depends on the state the timer is in: waiting, ticking, cancelled or with ticks queued.", "anchors": ["core/actor/actor_timer.go: Reset, Stop", "core/actor/actor_runtime_impl.go: OnTimer"]}
{"id": "C85", "title": "A panic in a continuation is contained", "statement": "A continuation given to Then on the future of ReenterCall that panics is recovered and reported like a handler that panics; the actor, and the process, go on.", "quantifier": "all interleavings of continuations and handlers", "why_tests_cant": "Tests do not let a continuation panic.", "anchors": ["core/actor/actor_reenter_impl.go: Complete, Then", "core/actor/actor_runtime_impl.go: ReenterCall"]}
{"id": "C86", "title": "A re-entrant call without a deadline is given up after thirty seconds", "statement": "If the caller's context has no deadline, the future of ReenterCall is completed with an error at the latest thirty seconds after the call, whatever the callee does.", "quantifier": "all calls, all behaviours of the callee", "why_tests_cant": "Needs a callee that never answers and a thirty second wait.", "anchors": ["core/actor/actor_runtime_impl.go: ReenterCall"]}
{"id": "C87", "title": "A message crosses at most one node boundary", "statement": "While nothing is registered or unregistered, the resolution of one Call or Send sends the message from one node to another at most once: the node it is sent to delivers it or fails.", "quantifier": "all reachable cluster states, symbols, ids and types, all schedules of the calls in flight, all choices of the address book", "why_tests_cant": "A message that is sent to and fro needs an unlucky sequence of random choices, of any length.", "anchors": ["core/node/system_impl.go: Call, Send, findLocalOrWildcardActor, handleRemoteCall", "core/node/system_acceptor.go: Routing", "core/addressbook/addressbook_impl.go: GetByID, GetWildcardActor, Unregister"]}
{"id": "C88", "title": "Resolving a target never removes the record of a live actor", "statement": "When resolving a target removes an address-book record as stale, the actor it describes is neither running nor being registered.", "quantifier": "all reachable cluster states, all interleavings of calls with registrations and unregistrations", "why_tests_cant": "The window between the writing of the record and the insertion into the node's map is a few instructions wide.", "anchors": ["core/node/system_impl.go: Call, Send, findLocalOrWildcardActor, handleRemoteCall", "core/node/system_acceptor.go: Routing", "core/addressbook/addressbook_impl.go: GetByID, GetWildcardActor, Unregister"]}
{"id": "C89", "title": "Resolving a target never crashes the node", "statement": "No Call or Send brings down the process of the node it is resolved on, whatever the state of the address book.", "quantifier": "all reachable cluster states including those left by failed store commands, all symbols, ids and types", "why_tests_cant": "Needs a stale record left by a failed store command together with a particular call.", "anchors": ["core/node/system_impl.go: Call, Send, findLocalOrWildcardActor, handleRemoteCall", "core/node/system_acceptor.go: Routing", "core/addressbook/addressbook_impl.go: GetByID, GetWildcardActor, Unregister"]}
{"id": "C90", "title": "Closing a subscription ends it and no other", "statement": "After Close of a subscription has returned nil, that subscription receives no further message, and other subscriptions of the same or other channels go on receiving.", "quantifier": "all interleavings of Close with subscribing, publishing and reading on any number of nodes", "why_tests_cant": "The close is three commands against a shared store; the losing interleavings lie between them.", "anchors": ["lib/pubsub/ps_channel.go: Close, loop"]}
{"id": "C91", "title": "Closing a topic loses no message", "statement": "Closing a topic removes it only when it has no channel and no message; no message published after a channel has subscribed is lost by it.", "quantifier": "all interleavings of Topic.Close with Sub and Pub on any number of nodes", "why_tests_cant": "The check and the removal are separate commands against a shared store.", "anchors": ["lib/pubsub/ps_topic.go: Close"]}
{"id": "C92", "title": "A successful Register has published and started the actor", "statement": "A Register call that returns without error has written the id record, the type-set entry, the node's endpoint and the two weight counters, has started exactly one actor with its node, id and type, and has done nothing else; when it returns that actor runs and the node delivers messages for the id to it.", "quantifier": "all interleavings of Register and Unregister calls on all nodes, all store failures and crashes", "why_tests_cant": "A lost write or a second actor needs a failure or overlap at one particular step.", "anchors": ["core/node/system_impl.go: Register", "core/addressbook/addressbook_impl.go: Register"]}
{"id": "C93", "title": "Unregister ends the actor and withdraws its record", "statement": "An Unregister call that returns without error and without a store failure ended at most one actor and either found no record of the id or removed the record, its type-set entry and the weight from the counters; when Unregister returns no actor with that id runs on the node.", "quantifier": "all interleavings of Register and Unregister calls on all nodes, all store failures and crashes", "why_tests_cant": "An actor left running after Unregister needs a particular overlap.", "anchors": ["core/node/system_impl.go: Unregister", "core/addressbook/addressbook_impl.go: Unregister"]}
{"id": "C94", "title": "gRPC client calls go to the address they name", "statement": "Every invocation made by Call or CallWait of the gRPC client goes over a connection that was opened to the address given in that call. An address that was in the client's configuration (and could be dialled) is never reported as having no connection, and CallWait never dials it again.", "quantifier": "for all configurations, all numbers of concurrent Call and CallWait, all interleavings of their steps, all outcomes of dials and invocations", "why_tests_cant": "the connection table is shared and rewritten by concurrent CallWaits; a mix-up shows only in particular interleavings with several addresses", "anchors": ["lib/grpc/client.go:36-49", "lib/grpc/client.go:94-128", "lib/grpc/client.go:130-197"]}
{"id": "C95", "title": "gRPC client calls report the transport's answer, once", "statement": "A Call or CallWait that returned did so once. It returned nil exactly if it was handed to the transport once and the transport accepted it. It returned the transport's error if it was handed over once and refused. After any other error it was never handed to the transport.", "quantifier": "for all configurations, all numbers of concurrent calls, all interleavings, all outcomes of dials and invocations, cancellations at any moment", "why_tests_cant": "needs every combination of cancellation, missing connection, bad option and transport failure under every interleaving", "anchors": ["lib/grpc/client.go:130-162", "lib/grpc/client.go:164-197"]}
{"id": "C96", "title": "An active timer goes on firing", "statement": "A timer with a positive interval that is active, on an actor that is not exiting, whatever was done before with it or other timers, can fire any number of times more without any further call, and needs for each firing at most the larger of its due time and its interval.", "quantifier": "all histories of OnTimer, CancelTimer, Stop, Reset, SetInterval and timer ticks, all numbers of timers, all capacities of the timer channel above 0, all numbers of further firings", "why_tests_cant": "A goroutine that stops after an unusual sequence of stops and resets shows only after that sequence and a long wait.", "anchors": ["core/actor/actor_timer.go", "core/actor/actor_runtime_impl.go: timer cases of the loop"]}
{"id": "C97", "title": "A started periodic task goes on running", "statement": "A timer task whose last start or stop was a start can run its handler any number of times more, by the work of its loops and tickers alone, whatever starts, stops and panics went before, as long as the process lives.", "quantifier": "all histories of starts, stops, ticks, handler ends and panics, with any number of loops, all numbers of further runs", "why_tests_cant": "A loop that ends after a restart or panic in one particular moment is not met by a few sample runs.", "anchors": ["lib/timer/timer_tick.go"]}
{"id": "C98", "title": "A new channel starts with what is published after its first subscription", "statement": "A message published before anybody has subscribed to a channel is never delivered to that channel when it is subscribed with the default read mode; with ReadModeBeginning a channel without a group is given everything that is in the stream.", "quantifier": "all interleavings of topic creation, Pub, Sub, reads, handlers, Close and crashes on any number of topics, channels and nodes", "why_tests_cant": "Starting one entry too early or too late depends on the moment of the group's creation relative to concurrent publishers.", "anchors": ["lib/pubsub/ps_channel.go:27-44", "lib/pubsub/ps_topic.go:85-102"]}
{"id": "C99", "title": "Pub reports what it has done", "statement": "Pub that returns nil has added the message, with its non-empty event, exactly once at the end of the topic, where it waits for every subscribed channel; Pub with an empty event returns an error and changes nothing; Pub that returns an error has not published.", "quantifier": "all states reached by any interleaving of all operations, all outcomes of the store command", "why_tests_cant": "The lost reply of a store command cannot be provoked by a test at will.", "anchors": ["lib/pubsub/ps_topic.go:70-83"]}
{"id": "C100", "title": "An option set on one builder is seen by no other", "statement": "GetOpt on a builder obtained from the loader returns the value last set for that key through this same builder, or the value the factory gave the type; options set through other builders have no influence.", "quantifier": "all sequences and interleavings of Builder, WithOpt, GetOpt and loops over GetOptions, on any number of builders and types", "why_tests_cant": "A shared map only shows when another builder of the same type has been used before with a key this one leaves unset.", "anchors": ["core/actor/actor_build_impl.go:32-69", "tests/mock/mock_loader.go:45-58", "tests/mock/mock_factory.go:13-79"]}
{"id": "C101", "title": "Builders can be used from several goroutines", "statement": "No interleaving of calls on builders by several goroutines brings the process down, and every call that has begun can end.", "quantifier": "all interleavings of WithOpt, GetOpt and loops over GetOptions on any number of builders", "why_tests_cant": "The runtime stops the process only when two accesses of one map really overlap, which takes nanoseconds.", "anchors": ["core/actor/actor_build_impl.go:16", "core/actor/actor_build_impl.go:32-69", "tests/mock/mock_loader.go:25-27"]}
{"id": "C102", "title": "Id and type of a builder are its own", "statement": "The getters of a builder return the id and type last given to this builder, or else those of the factory, and the weight, limit and uniqueness of the factory, whatever is done with other builders; the empty id is never accepted.", "quantifier": "all sequences of calls on any number of builders, all strings", "why_tests_cant": "The claim is about arbitrary histories on other builders.", "anchors": ["core/actor/actor_build_impl.go:19-57", "tests/mock/mock_loader.go:45-58"]}
{"id": "C103", "title": "An actor created on demand gets the options it was asked for and no others", "statement": "When Picker is called on a builder and a node is chosen, the constructor there is called for the requested type with an id made of node, type and a fresh identifier, and GetOpt returns every option that was set on the builder; an option that was not set reads as empty.", "quantifier": "all option maps of UTF-8 strings, ids, types, nodes and orders of the loops over maps", "why_tests_cant": "The options pass two JSON documents and two loops over maps in random order.", "anchors": ["tests/mock/mock_loader.go:21-42", "tests/mock/actor_dynamic_picker.go:33-53", "tests/mock/actor_dynamic_register.go:30-51"]}
{"id": "C104", "title": "A node starts with its static actors", "statement": "Initialising a node calls Register exactly once for every type of the factory that is not dynamic, with the id node_ID (or node_type when the factory gives no id), and for no dynamic type, in whatever order the factory lists them and whatever Register returns.", "quantifier": "all factories whose entries are listed under their own name, all orders of the map", "why_tests_cant": "Map order is random and errors of Register are only logged.", "anchors": ["tests/mock/mock_loader.go:60-81", "core/node/node_process_impl.go:52-57"]}
{"id": "C105", "title": "Timer service operations reach the named task only", "statement": "StartTask, StopTask and Stop act on the task registered for the given id at the moment of the lookup and on no other; Stop returns an error exactly when none is registered; a task that no call started never runs its handler.", "quantifier": "all interleavings of all calls on one service, any number of tasks, and all steps of their loops and tickers", "why_tests_cant": "Tests use one task and sequential calls; the claim is about every other task under every interleaving.", "anchors": ["lib/timer/timer.go:86-181", "lib/timer/timer_tick.go:13-48"]}
{"id": "C106", "title": "StartAllTask and StopAllTask reach every registered task", "statement": "When StartAllTask or StopAllTask returns, every id registered when it began and not removed meanwhile was visited and its task was started or stopped.", "quantifier": "all interleavings with other calls, all orders in which Go ranges over the map", "why_tests_cant": "Map order is random and changes during the loop are rare.", "anchors": ["lib/timer/timer.go:124-134"]}
{"id": "C107", "title": "A running task can be stopped through its service", "statement": "Every task that was made by NewTickTask and is running can be stopped by some call on the service.", "quantifier": "all histories of calls on the service", "why_tests_cant": "A lost task keeps running silently; a test that removes or replaces a task does not wait for further runs.", "anchors": ["lib/timer/timer.go:136-163", "lib/timer/timer.go:36-43"]}
{"id": "C108", "title": "Calls on the timer service do not bring the process down", "statement": "No interleaving of calls on a service, with any arguments, ends the process.", "quantifier": "all interleavings of calls, tasks with any interval", "why_tests_cant": "The crashes need a removal between two lookups, overlapping map accesses or an interval of zero.", "anchors": ["lib/timer/timer.go:124-181", "lib/timer/timer_tick.go:79-93"]}
{"id": "C109", "title": "Calls on the timer service end", "statement": "Every call on a service that has begun can return by the work of the calls that have begun, whatever the others do.", "quantifier": "all reachable states", "why_tests_cant": "A deadlock or an endless loop appears in rare interleavings only.", "anchors": ["lib/timer/timer.go:124-181"]}
{"id": "C110", "title": "A node that says its actors ended has ended them", "statement": "When WaitClose returns and reports that all actors have shut down, every actor of the node has had Exit called and its loop has ended; it reports a timeout only when 30 seconds have passed since the signal was taken; the node is removed from the registry before it returns; and when nothing is registered meanwhile and the actors' loops end, it can always return so.", "quantifier": "all interleavings of the shutdown with Register, Unregister, requests from other nodes, the loops of any number of actors and the clock", "why_tests_cant": "A test ends one or two idle actors; what is lost in other interleavings is not seen because the process is gone.", "anchors": ["core/node/node_process_impl.go:59-94", "core/node/system_impl.go:467-492"]}
{"id": "C111", "title": "Requests are answered before actors are ended", "statement": "Every request from another node that is ever taken is answered before the shutdown calls Exit of any actor.", "quantifier": "all interleavings of requests with the shutdown", "why_tests_cant": "A request must arrive in the window between the signal and the end of the actors.", "anchors": ["core/node/system_impl.go:467-485", "lib/grpc/server.go:93-104", "core/node/system_acceptor.go:73"]}
{"id": "C112", "title": "The shutdown is over after 30 seconds", "statement": "WaitClose returns at the latest 30 seconds after it took the signal, whatever actors and requests do.", "quantifier": "all reachable states of a shutdown, actors and requests that never end", "why_tests_cant": "Needs a request or actor that hangs, and a wait of half a minute.", "anchors": ["core/node/node_process_impl.go:65-89", "core/node/system_impl.go:467-474"]}
{"id": "C113", "title": "Only the first signal counts", "statement": "The shutdown begins once, after a signal; further signals change nothing of what is seen of it.", "quantifier": "all numbers and moments of further signals", "why_tests_cant": "Signals would have to be sent at every moment of the shutdown.", "anchors": ["core/node/node_process_impl.go:60-63"]}
{"id": "C114", "title": "The count of actors to wait for is right", "statement": "The counter that the shutdown waits for never falls below zero and is zero, when the end of all actors is reported, only after every one of the goroutines that end an actor is through.", "quantifier": "all interleavings of those goroutines with the shutdown", "why_tests_cant": "A wrong count shows as a panic or an early return in some interleavings only.", "anchors": ["core/node/system_impl.go:467-485", "core/node/node_process_impl.go:66-80"]}
{"id": "C115", "title": "The shutdown does not bring the process down", "statement": "No interleaving of the shutdown with Register, Unregister and requests ends the process by a panic or a fatal error.", "quantifier": "all interleavings, any number of actors and calls", "why_tests_cant": "The crashes need a Register or Unregister that overlaps the shutdown.", "anchors": ["core/node/system_impl.go:467-492", "core/node/system_impl.go:99-187", "core/actor/actor_runtime_impl.go:365-377"]}
{"id": "C116", "title": "Every span is finished once", "statement": "A span that is started for a call, for its request to another node or for that request's handling is finished at most once, after its start; when Call or Send returns, every span started for it is finished and none starts later; the same holds of a request when its handler ends; with the call span registered every call has one.", "quantifier": "all interleavings of any number of calls, requests and handlers on any number of nodes", "why_tests_cant": "A span that is not finished is never reported, so no test sees it.", "anchors": ["core/node/system_impl.go:207-220", "core/node/system_impl.go:373-386", "lib/span/span_call.go:50-98", "lib/span/span_grpc.go:39-113"]}
{"id": "C117", "title": "The span of a call is a child of the span of its handler", "statement": "The span of a call that a handler makes with the wrapper it was given is a child of the span of the request it handles; with a wrapper of fresh context it starts a trace.", "quantifier": "all numbers and orders of calls on any wrappers", "why_tests_cant": "The shape of traces is looked at by eye, and for one call.", "anchors": ["core/node/system_impl.go:210", "lib/span/span_call.go:57-70", "lib/span/span_grpc.go:100-109"]}
{"id": "C118", "title": "What a call causes is traced below it", "statement": "Every span has a parent that started before it or none; the span of a request descends from the span of the call that it comes from, and so does every span of the calls that its handler makes on the wrapper it was given.", "quantifier": "all interleavings, any depth of calls across nodes", "why_tests_cant": "Two goroutines must use one wrapper within the same few instructions.", "anchors": ["core/node/system_impl.go:210", "core/node/system_impl.go:274", "core/node/system_impl.go:376", "lib/span/span_grpc.go:39-113"]}
{"id": "C119", "title": "GetValue gives the value last set with WithValue", "statement": "After WithValue for a key has returned, GetValue for that key gives the value of the call for it that returned last, or what the context given to Init has when there was none.", "quantifier": "all contexts given to Init, all interleavings of calls of WithValue and GetValue by handlers, timers and futures of an actor", "why_tests_cant": "Two goroutines of one actor must call WithValue within the same few instructions.", "anchors": ["core/actor/actor_context_impl.go:103-109", "core/actor/actor_runtime_impl.go:60-65"]}
{"id": "C120", "title": "The context of an actor always leads to its own actor and system", "statement": "Whatever values a user sets, for whatever keys and in whatever order, the methods of the context find the system and the actor that Init set, also when the context given to Init is that of another actor.", "quantifier": "all contexts given to Init and all interleavings of look-ups and calls of WithValue", "why_tests_cant": "The keys and the nesting of contexts are chosen by the user.", "anchors": ["core/actor/actor_context_impl.go:15-109", "core/actor/actor_runtime_impl.go:60-65"]}
{"id": "C121", "title": "Reading from the context does not get slower with the number of times values were set", "statement": "The number of layers that a look-up in the context of an actor visits is bounded by the number of different keys that were set, not by the number of calls of WithValue.", "quantifier": "all numbers of calls of WithValue", "why_tests_cant": "The slowdown and the memory grow over the life of an actor, not within a test.", "anchors": ["core/actor/actor_context_impl.go:103-105"]}
{"id": "C122", "title": "A Redis client has the options it was built with, and defaults for the rest", "statement": "A client built with a list of options has, in every field, the value of the last option for that field, and the default in fields without one, whatever other clients were built before and in whatever order the options come.", "quantifier": "all lists of options and all sequences of builds", "why_tests_cant": "The order of options and earlier builds matter; tests build one client with one order.", "anchors": ["3rd/redis/client.go:13-52", "3rd/redis/client_opt.go:12-107"]}
{"id": "C123", "title": "A Redis build that fails leaves the client in use", "statement": "When building a client fails, because the URL is bad or the server does not answer, the client that the package's functions use is the one from before.", "quantifier": "all sequences of builds, all options, all answers of the server", "why_tests_cant": "Needs a server that stops answering between two builds.", "anchors": ["3rd/redis/client.go:25-44", "3rd/redis/client_opt.go:20-31"]}
{"id": "C124", "title": "GetCmdsByteSlice gives every value, or an error", "statement": "GetCmdsByteSlice returns the values of all commands in order, or a non-nil error when one of the commands failed.", "quantifier": "all lists of commands and results", "why_tests_cant": "Needs a pipeline of which one command fails; the test's commands all succeed.", "anchors": ["3rd/redis/client_utils.go:11-24"]}
{"id": "C125", "title": "A log message is written once when its level is enabled, and else not at all", "statement": "A call of a function of the log package writes one entry with the level of the function, its text, the tag of the server and every field given, each under its key, when that level is at or above the level of the logger; otherwise it writes and prints nothing.", "quantifier": "all functions, levels, tags, texts and fields", "why_tests_cant": "Five fields of the same type are passed by position, at ten places, for every level of the logger.", "anchors": ["lib/log/helper.go:51-170"]}
{"id": "C126", "title": "PanicF does not return, every other function of the log does", "statement": "PanicF writes its message and panics, whatever the level of the logger; every other function of the package returns; SystemLog of a helper writes messages of every level.", "quantifier": "all levels of the logger and of messages", "why_tests_cant": "Needs a logger whose level is above panic; tests use the default.", "anchors": ["lib/log/helper.go:51-68", "lib/log/helper.go:78-115", "lib/log/helper.go:168-170"]}
{"id": "C127", "title": "A logger is what its options say", "statement": "A logger built with options has the level, the caller, its form with or without the function, the skipped frames, the file and standard output that the last option of each kind says, and the default for kinds without option; no logger is built exactly when an option errs or the file cannot be opened.", "quantifier": "all lists of options", "why_tests_cant": "The form of the caller is seen only in the text of a line, which no test reads.", "anchors": ["lib/log/options.go:61-213", "lib/log/options.go:228-273"]}
{"id": "C128", "title": "Loggers that are built with the same options are alike", "statement": "Building a logger twice with the same options gives equal loggers, and building one does not change an encoder configuration of the user.", "quantifier": "all lists of options, all earlier builds", "why_tests_cant": "Needs two loggers that share a configuration.", "anchors": ["lib/log/options.go:228-273"]}
{"id": "C129", "title": "A message goes once to each output of the logger, and nowhere else", "statement": "An enabled message appears once on standard output when the logger writes there, once in the file when it has one, and on no output that the logger was not given.", "quantifier": "all loggers and functions of the log", "why_tests_cant": "What is printed to the console is not read by tests.", "anchors": ["lib/log/helper.go:86-96", "lib/log/options.go:234-248"]}
{"id": "C130", "title": "TaDataFields loses no field", "statement": "Every common and own field of a flow is in what TaDataFields gives: those not chosen as they are and in order, the chosen ones in one object under the key.", "quantifier": "all fields, keys and choices", "why_tests_cant": "Depends on the names of fields that different files choose.", "anchors": ["lib/log/flow.go:22-58"]}
{"id": "C131", "title": "Every log field is registered once, with its first type, in the order of registration", "statement": "GetLogFields gives every key that was registered exactly once, with the type of its first registration and in the order of the first registrations; RegisterLogField panics exactly when the key was registered before and then changes nothing.", "quantifier": "all sequences of registrations", "why_tests_cant": "Registrations come from initialisers of many packages.", "anchors": ["lib/log/field.go:33-48"]}
{"id": "C132", "title": "The name of a function is printed without its package", "statement": "funcShortName gives what follows the last dot of the last path element of a name, and the whole name when that element has no dot.", "quantifier": "all names", "why_tests_cant": "Names of functions, methods, closures and packages with dots are too many forms to list.", "anchors": ["lib/log/options.go:279-287"]}
{"id": "C133", "title": "A request never brings the node down", "statement": "A panic of an actor's handler or of an interceptor of the user while a request from another node is served does not leave the server: the caller gets an error.", "quantifier": "all servers whose first interceptor is the recovery one, all interceptors, handlers and requests", "why_tests_cant": "Needs every place that can panic while a request is served.", "anchors": ["lib/grpc/server.go:26-57", "core/node/system_acceptor.go:48-114"]}
{"id": "C134", "title": "A request is answered with the answer of its actor, or with an error", "statement": "A well formed request from another node calls the addressed actor once and is answered with what the call gives, with an error when the call errs; a malformed one is answered with an error and calls nothing; a span of the request is finished after everything else, also on a panic.", "quantifier": "all requests, actors and tracers", "why_tests_cant": "Needs malformed requests and actors that panic behind a real connection.", "anchors": ["core/node/system_acceptor.go:48-114"]}
{"id": "C135", "title": "Interceptors run in the order given, each around the next", "statement": "A server runs the unary and stream interceptors it was given in the order of its options, each around the next, and the handler innermost; it is built exactly when a handler is registered.", "quantifier": "all lists of options and all requests", "why_tests_cant": "Tests use one interceptor.", "anchors": ["lib/grpc/server.go:26-57", "lib/grpc/server_opt.go:18-51"]}
{"id": "C136", "title": "A span is made by the first factory of its name", "statement": "GetSpan uses the first factory given for the name over all options of the tracer; it errs exactly when no factory was given for the name.", "quantifier": "all lists of options and names", "why_tests_cant": "Needs names that repeat within one option and over several.", "anchors": ["lib/tracer/jaegertracing.go:73-77", "lib/tracer/jaegertracing.go:114-127", "lib/tracer/opts.go:73-79"]}
{"id": "C137", "title": "A slow span is always reported", "statement": "A span that lasts longer than the configured limit is reported whatever the sampling rate.", "quantifier": "all options, spans and trace ids", "why_tests_cant": "Sampling is random; a test with the default rate sees every span.", "anchors": ["lib/tracer/opts.go:15-19", "lib/tracer/slow_reporter.go:139-161"]}
{"id": "C138", "title": "No sampling rate brings the process down", "statement": "For every sampling rate, building the tracer and ending spans neither panics nor crashes the process.", "quantifier": "all options, spans and trace ids", "why_tests_cant": "The crash is in another goroutine and later than the call that causes it.", "anchors": ["lib/tracer/jaegertracing.go:39-96", "lib/tracer/slow_reporter.go:59-83", "lib/tracer/slow_reporter.go:148-148"]}
{"id": "C139", "title": "Every Mongo connection that was asked for serves its name", "statement": "After a Build that succeeds, Collection of every name that was asked for uses the server at the address given with that name.", "quantifier": "all lists of options", "why_tests_cant": "Needs a database, and names and addresses that repeat.", "anchors": ["3rd/mgo/mgr.go:27-78", "3rd/mgo/mgr_opts.go:32-60"]}
{"id": "C140", "title": "A Mongo Build that returns has connected what it was asked to", "statement": "When Build returns without panic or error, its connections are up; a Build that failed can be repeated.", "quantifier": "all sequences of calls, all sets of servers that answer at each", "why_tests_cant": "Needs servers that fail and come back between calls of one process.", "anchors": ["3rd/mgo/mgr.go:27-64"]}
{"id": "C141", "title": "With a tracer every Mongo operation is traced", "statement": "When Build was given a tracer that gives spans, an operation on a collection begins a span.", "quantifier": "all sequences of calls", "why_tests_cant": "Operations succeed just as well without a span.", "anchors": ["3rd/mgo/mgr.go:66-78", "3rd/mgo/collection.go:19-55"]}
{"id": "C142", "title": "A file that was written holds what was written", "statement": "After SaveFile or WriteJSON of some bytes the file holds exactly these bytes, until it is written again; other files are not touched.", "quantifier": "all sequences of writes, paths and data", "why_tests_cant": "Needs a file that held more before.", "anchors": ["utils/file/file.go:55-87"]}
{"id": "C143", "title": "A node is what its options say", "statement": "A node has the id, address, port, tracer, loader and factory that the last option for each says, and the default for the others; it listens exactly when it has a port; building it panics exactly when it has no loader or no factory or its port is taken, and then changes nothing.", "quantifier": "all processes, lists of options and ports in use", "why_tests_cant": "Needs ports in use and options that repeat.", "anchors": ["core/node.go:19-82", "core/node/node_process_impl.go:22-38", "core/node/system_impl.go:46-89"]}
{"id": "C144", "title": "Every option of a node has an effect", "statement": "Two nodes whose options say different things can be told apart; options given to Init count like those given to the build; Init hands the node to its loader.", "quantifier": "all processes and lists of options", "why_tests_cant": "An option without effect breaks no test.", "anchors": ["core/node.go:46-50", "core/node/node_process_impl.go:22-38", "core/node/node_process_impl.go:52-57"]}
{"id": "C145", "title": "Nodes of one process have different ids and ports", "statement": "No two nodes of a process that are up have the same id or listen at the same port; after Exit a port can be used again.", "quantifier": "all sequences of builds and exits in a process", "why_tests_cant": "Tests build few nodes per process, with constant ids.", "anchors": ["core/node/node_process_impl.go:22-38", "core/node/system_impl.go:46-89", "lib/grpc/server.go:59-70"]}
{"id": "C146", "title": "Get gives the node built last, and nil before", "statement": "Get returns the last node that was built, whatever failed builds, Init and Exit come later, and nil when none was built.", "quantifier": "all sequences of calls in a process", "why_tests_cant": "Every test builds a node first.", "anchors": ["core/node/node_process_impl.go:20-42"]}
{"id": "C147", "title": "Count is the sum of the calls made", "statement": "Count of a message's wait group returns the number added minus the number done over all calls that have begun, as a 32 bit number, whatever calls overlap.", "quantifier": "all interleavings of Add, Done, Wait and Count by any number of goroutines", "why_tests_cant": "Needs calls that overlap, and counts beyond 32 bits.", "anchors": ["lib/warpwaitgroup/warpwaitgroup.go:16-38"]}
{"id": "C148", "title": "Wait returns only when the tasks cancel out", "statement": "Wait of a message's wait group returns only at a moment at which the Adds and Dones that have reached the group add up to zero; one that begins while they do not blocks.", "quantifier": "all interleavings of Add, Done, Wait and Count by any number of goroutines", "why_tests_cant": "A Wait that returns early shows only under the interleaving that allows it.", "anchors": ["lib/warpwaitgroup/warpwaitgroup.go:31-33"]}
{"id": "C149", "title": "No waiter is left behind", "statement": "When Adds and Dones add up to zero and none of them is under way, every Wait under way can return by its own steps, even after panics of other calls.", "quantifier": "all interleavings of Add, Done, Wait and Count, including misuse", "why_tests_cant": "A lost wake-up hangs only in the interleaving that loses it.", "anchors": ["lib/warpwaitgroup/warpwaitgroup.go:16-33"]}
{"id": "C150", "title": "Balanced use of a wait group does not panic", "statement": "As long as calls of Done do not outnumber calls of Add, no call on a message's wait group panics.", "quantifier": "all interleavings of Add, Done, Wait and Count by any number of goroutines", "why_tests_cant": "The panics of sync.WaitGroup need an Add in a window of a few instructions.", "anchors": ["lib/warpwaitgroup/warpwaitgroup.go:16-33", "core/node/system_impl.go:295-307", "core/actor/actor_runtime_impl.go:186"]}
{"id": "C151", "title": "Count and Wait agree", "statement": "Count returns 0 exactly when Wait would return at once.", "quantifier": "all interleavings of Add, Done, Wait and Count by any number of goroutines", "why_tests_cant": "They disagree only between the two halves of an Add or Done.", "anchors": ["lib/warpwaitgroup/warpwaitgroup.go:16-38", "core/node/system_impl.go:295"]}
{"id": "C152", "title": "A round of a task runs its handlers in order", "statement": "In each round of a periodic task the service's begin handler comes first, then the task's function, then the exception handler with the error the function returned if it did, then the end handler; a panic in any of them ends the round and is handed to the exception handler; each runs at most once for each reason.", "quantifier": "all services, task functions and contexts, whatever the user functions do", "why_tests_cant": "Every combination of returning, failing and panicking of four user functions.", "anchors": ["lib/timer/timer_tick.go:51-78", "lib/timer/timer.go:84-103"]}
{"id": "C153", "title": "IsEnd skips the task's function in this round only", "statement": "When the begin handler sets IsEnd the task's function is skipped in this round; in later rounds it runs again unless the flag is set again.", "quantifier": "all services, task functions and sequences of rounds", "why_tests_cant": "Needs several rounds with a begin handler that sets the flag once.", "anchors": ["lib/timer/timer.go:26-31", "lib/timer/timer_tick.go:62-68"]}
{"id": "C154", "title": "A panic in a task does not end the process", "statement": "Whatever function of a task or of its service panics, the panic is recovered and the process lives.", "quantifier": "all services, task functions and contexts, whatever the user functions do", "why_tests_cant": "Needs panics inside the exception handler itself.", "anchors": ["lib/timer/timer_tick.go:52-61", "lib/timer/timer_tick.go:69-73"]}
{"id": "C155", "title": "A client is what its options say", "statement": "A client built with options lets through as many Calls at once as the last option for it says (1024 without one), at Init connects to the addresses of all options in order as far as they answer, and dials with the credentials given last and with all other dial options in order.", "quantifier": "all lists of options and all sets of addresses that answer", "why_tests_cant": "All lists of options, repeated ones included.", "anchors": ["lib/grpc/client_opt.go:10-95", "lib/grpc/client.go:37-73", "lib/grpc/client.go:97-109"]}
{"id": "C156", "title": "The interceptors of a client run around every call in order", "statement": "The unary interceptors given to a client run around every call on its connections, in the order given, the first outermost.", "quantifier": "all lists of options, interceptors, requests and answers", "why_tests_cant": "Interceptors are arbitrary functions; needs a dial option that sets one as well.", "anchors": ["lib/grpc/client_opt.go:79-89", "lib/grpc/client.go:58-64"]}
{"id": "C157", "title": "Every option of a client has an effect", "statement": "Giving a client another value for an option makes a client that can be told apart from the first.", "quantifier": "all options and all lists of options before and after", "why_tests_cant": "That an option is read nowhere cannot be seen from tests that pass it.", "anchors": ["lib/grpc/client_opt.go:39-95", "lib/grpc/client.go:37-73"]}
{"id": "C158", "title": "A time to live given for a topic is set", "statement": "When a topic is asked for or subscribed to with a time to live, its stream has that time to live afterwards.", "quantifier": "all sequences of creations, subscriptions and losses of the stream by any number of processes, all options", "why_tests_cant": "Depends on what other processes did to the topic before.", "anchors": ["lib/pubsub/ps_topic.go:24-68", "lib/pubsub/ps_mgr.go:41-60", "core/node/system_impl.go:451-453"]}
{"id": "C159", "title": "A subscription begins where its read mode says", "statement": "A subscription to a channel of a topic that succeeds begins where its last read mode says, at the end of the stream if it has none; asking for a topic again after its stream was lost makes it usable again.", "quantifier": "all sequences of creations, subscriptions and losses of the stream by any number of processes, all options", "why_tests_cant": "Depends on who subscribed to the channel before and on the stream expiring.", "anchors": ["lib/pubsub/ps_topic.go:85-102", "lib/pubsub/ps_topic.go:141-157", "lib/pubsub/ps_channel.go:27-44"]}
{"id": "C160", "title": "The callback given with a subscription is called", "statement": "A callback given as an option of a topic or of a subscription is called when the subscription has succeeded.", "quantifier": "all sequences of creations and subscriptions, all options", "why_tests_cant": "The absence of a call under every history.", "anchors": ["lib/pubsub/ps_opts.go:39-56", "lib/pubsub/ps_topic.go:24-68", "core/node/system_impl.go:451-453"]}
{"id": "C161", "title": "Registering handlers does not bring the process down", "statement": "An actor may call OnEvent and Sub in Init, in its handlers, in the callbacks of its timers and in continuations without the process being stopped for a map that is read and written at once.", "quantifier": "all interleavings of the message loop, Init, Exit and any number of other goroutines of an actor", "why_tests_cant": "The runtime notices such an overlap only sometimes, and only if the goroutines meet at that moment.", "anchors": ["core/actor/actor_runtime_impl.go:81-87", "core/actor/actor_runtime_impl.go:145-157", "core/actor/actor_runtime_impl.go:280-364"]}
{"id": "C162", "title": "Using timers does not bring the process down", "statement": "An actor may call OnTimer and CancelTimer in Init, in its handlers and in the callbacks of its timers, and may be closed, without the process being stopped for a map that is used at once by two goroutines.", "quantifier": "all interleavings of the message loop, Init, Exit and any number of other goroutines of an actor", "why_tests_cant": "The runtime notices such an overlap only sometimes, and only if the goroutines meet at that moment.", "anchors": ["core/actor/actor_runtime_impl.go:95-137", "core/actor/actor_runtime_impl.go:280-377"]}
{"id": "C163", "title": "Registering, unregistering and listing actors does not bring the process down", "statement": "Register, Unregister, Actors and the look-ups of Call, Send and FindActor may be called on a node at once from any goroutines without the process being stopped for a map that is read and written at once.", "quantifier": "all interleavings of any number of calls", "why_tests_cant": "The runtime notices such an overlap only sometimes, and only if the goroutines meet at that moment.", "anchors": ["core/node/system_impl.go:99-152", "core/node/system_impl.go:154-187", "core/node/system_impl.go:189-195"]}
{"id": "C164", "title": "Actors lists the registered actors", "statement": "If a call of Actors returns, its answer has every actor whose Register returned without an error before the call and that nobody unregisters before it returns, only actors that were registered at some moment between call and return, and none twice if nothing is registered meanwhile.", "quantifier": "all interleavings of any number of calls", "why_tests_cant": "All interleavings of changes with the steps of a loop over a map, whose order is random.", "anchors": ["core/node/system_impl.go:99-152", "core/node/system_impl.go:154-187", "core/node/system_impl.go:189-195"]}
{"id": "C165", "title": "A look-up finds exactly the registered actors", "statement": "FindActor, and the look-up of Call and Send, finds an actor whose Register returned without an error and that nobody has asked to unregister, does not find one that nobody has asked to register, nor one for which an Unregister has returned unless it was registered meanwhile, and is answered whenever all calls have returned.", "quantifier": "all interleavings of any number of calls", "why_tests_cant": "All interleavings of Register and Unregister with the look-up.", "anchors": ["core/node/system_impl.go:99-152", "core/node/system_impl.go:154-187", "core/node/system_impl.go:230-232", "core/node/system_impl.go:247-249", "core/node/system_impl.go:455-465"]}
{"id": "C166", "title": "Messages of one call tree are waited for together", "statement": "GetWg of two wrappers gives the same wait group exactly if their contexts belong to one call tree: a tree begins with a context without a group, a request from another node or Swap, and holds the contexts and messages made from it. GetWg never gives nil.", "quantifier": "all runs, any number of contexts, messages and swaps", "why_tests_cant": "All orders in which contexts, messages and swapped wrappers are made from each other.", "anchors": ["router/msg/msg.go:47-83", "router/msg/msg.go:137-142", "core/node/system_acceptor.go:97"]}
{"id": "C167", "title": "Swap exchanges request and reply", "statement": "The wrapper that Swap returns shows the reply of the given wrapper as its request and the request as its reply.", "quantifier": "all runs", "why_tests_cant": "A test that reads one side only, or both sides while equal, does not see it.", "anchors": ["router/msg/msg.go:71-83"]}
{"id": "C168", "title": "A builder changes no message but its own", "statement": "The request or reply that a wrapper shows is the one last set on that side through the wrapper itself or a wrapper swapped from it or from which it was swapped; if none was set, it is empty. It can always be read.", "quantifier": "all runs, any number of wrappers and swaps", "why_tests_cant": "All orders of building, swapping and setting.", "anchors": ["router/msg/msg.go:47-83", "router/msg/msg.go:104-107", "router/msg/msg.go:115-133"]}
{"id": "C169", "title": "Options given to NewBuilder take effect", "statement": "A message made with NewBuilder(ctx, options...) uses the encoding of custom fields that the options choose.", "quantifier": "all runs, all options", "why_tests_cant": "No caller in the repository gives options, so no test notices.", "anchors": ["router/msg/msg.go:18", "router/msg/msg.go:47-69"]}
{"id": "C170", "title": "A transaction takes place at both participants or at neither", "statement": "When the Call of tcc_succ returns, both participants show the new value and have forgotten the transaction, or both are unchanged.", "quantifier": "all interleavings of any number of calls, cancels and closings", "why_tests_cant": "The test makes one call with both participants open.", "anchors": ["tests/mock/mock_actor_a.go:119-164", "tests/mock/mock_actor_b.go:76-124", "tests/mock/mock_actor_c.go:52-101", "core/node/system_impl.go:293-345", "core/actor/actor_runtime_impl.go:172-190"]}
{"id": "C171", "title": "A confirm finds its try", "statement": "A participant handles tcc_confirm of a transaction once, after tcc_succ of the same, and finds the transaction unless a tcc_cancel found it before, although the coordinator does not wait for the answer to tcc_succ.", "quantifier": "all interleavings of any number of calls, cancels and closings", "why_tests_cant": "All interleavings of the loops of three actors.", "anchors": ["tests/mock/mock_actor_a.go:123-155", "tests/mock/mock_actor_b.go:76-108", "tests/mock/mock_actor_c.go:52-85"]}
{"id": "C172", "title": "Cancelling undoes a transaction", "statement": "When all transactions that a participant has tried are cancelled, it shows its first value again.", "quantifier": "all interleavings of any number of calls, cancels and closings", "why_tests_cant": "Needs two transactions at once; no test sends tcc_cancel.", "anchors": ["tests/mock/mock_actor_b.go:76-124", "tests/mock/mock_actor_c.go:52-101", "tests/mock/mock_tcc.go:5-14"]}
{"id": "C173", "title": "Every actor on the way adds one", "statement": "A call of test_block with the number v in randvalue of the request, passed along three actors, returns without error and with v + 3 in randvalue of the response, wherever the actors live.", "quantifier": "all numbers, all places of any number of actors, all other fields of the message", "why_tests_cant": "The test makes calls with one number and one placement.", "anchors": ["tests/mock/mock_actor_a.go:106-117", "tests/mock/mock_actor_b.go:63-74", "tests/mock/mock_actor_c.go:40-50", "core/node/system_impl.go:293-361", "core/node/system_acceptor.go:92-114"]}
{"id": "C174", "title": "Where the actors live makes no difference to the caller", "statement": "After a call of test_block the caller finds the same message, request and response, whether the actors on the way live on its node or on others.", "quantifier": "all placements of any number of actors, all messages", "why_tests_cant": "Needs several nodes, and a comparison of two runs.", "anchors": ["tests/mock/mock_actor_a.go:106-117", "tests/mock/mock_actor_b.go:63-74", "tests/mock/mock_actor_c.go:40-50", "core/node/system_impl.go:293-361", "core/node/system_acceptor.go:92-114"]}
{"id": "C175", "title": "A message keeps its id, and each side its body", "statement": "After any calls on a builder the request has the body last given with WithReqBody and the response the one last given with WithResBody; unless a header is given, both sides have the id the message was made with and no other field of the header is set but the custom fields.", "quantifier": "all sequences of calls on a builder", "why_tests_cant": "Sequences of any length.", "anchors": ["router/msg/msg.go:30-70", "router/msg/msg.go:104-118", "router/msg/msg_custom_map.go:10-73", "router/msg/map_custom_object.go:5-26"]}
{"id": "C176", "title": "A re-entrant call brings the answer back", "statement": "The continuation of a ReenterCall of \"clac\" finds in calculateVal of the response the number the handler put into the request and two, wherever the other actor lives.", "quantifier": "all messages, own node or another", "why_tests_cant": "The test has one message and one node.", "anchors": ["tests/mock/mock_actor_a.go:33-50", "tests/mock/mock_actor_b.go:33-44", "core/actor/actor_runtime_impl.go:191-278", "router/msg/msg.go:71-83"]}
{"id": "C177", "title": "Continuations that share a variable add up", "statement": "After any number of messages \"reenter\" and \"chain\" have been handled, the variable their continuations share, nought before, holds eight and ten for every \"chain\".", "quantifier": "all numbers of messages, all interleavings of handlers, calls, actions and continuations", "why_tests_cant": "The tests handle one message at a time and wait a second.", "anchors": ["tests/mock/mock_actor_a.go:19", "tests/mock/mock_actor_a.go:33-50", "tests/mock/mock_actor_a.go:86-104", "core/actor/actor_reenter_impl.go:24-57"]}
{"id": "C178", "title": "Chained continuations run, once and in order", "statement": "Once the calls have returned, both continuations of every \"chain\" and the one of every \"reenter\" run, each once, the second after the first, whatever becomes of the context.", "quantifier": "all interleavings of any number of messages, calls, ends of contexts", "why_tests_cant": "Needs the future to be completed between two calls of Then, or contexts that end while calls are under way.", "anchors": ["tests/mock/mock_actor_a.go:33-50", "tests/mock/mock_actor_a.go:86-104", "core/actor/actor_runtime_impl.go:191-278", "core/actor/actor_reenter_impl.go:24-57", "router/msg/msg_custom_map.go:156-163"]}
{"id": "C179", "title": "Actors made on demand keep the nodes level", "statement": "If the weights of the nodes differ by no more than d, and no actor weighs more than d, then after any number of actors made through Picker they still differ by no more than d.", "quantifier": "all stores, numbers of nodes, types, weights, orders of the loops, interleavings of choices and registrations", "why_tests_cant": "Go's map order is random, and overlap needs several pickers; the tests look at no weight.", "anchors": ["tests/mock/actor_dynamic_picker.go:33-53", "core/addressbook/addressbook_impl.go:239-299", "tests/mock/actor_dynamic_register.go:30-54"]}
{"id": "C180", "title": "An actor made on demand is registered once, on the node chosen", "statement": "When the registration of an actor made through Picker has returned, the actor is found by its id and by its type, on the node that was chosen for it; it is registered once; and when all registrations are over, the weight of each node has grown by the weights of the actors placed there.", "quantifier": "all stores, all interleavings of any number of choices and registrations", "why_tests_cant": "Needs commands of several registrations to interleave in Redis.", "anchors": ["tests/mock/actor_dynamic_picker.go:33-53", "tests/mock/actor_dynamic_register.go:30-54", "core/addressbook/addressbook_impl.go:45-96"]}
{"id": "C181", "title": "Unregister called from a handler returns", "statement": "A handler that calls Unregister of its context for any actor gets an answer.", "quantifier": "all numbers of actors, handlers with any lists of Unregister calls, calls from outside, all interleavings", "why_tests_cant": "The tests unregister only from outside or from one control actor; a deadlock needs handlers of several actors to run at the same time.", "anchors": ["core/actor/actor_context_impl.go:60-67", "core/node/system_impl.go:154-187", "core/actor/actor_runtime_impl.go:280-377"]}
{"id": "C182", "title": "Unregister downwards always returns, and the actor is gone", "statement": "If actors can be ranked so that each handler unregisters only actors of a lower rank, every Unregister, from a handler or from outside, returns or panics after a number of steps limited by what was asked for; after it has returned the actor is out of the node's map and accepts no message.", "quantifier": "all numbers of actors, rankings, handlers, all interleavings", "why_tests_cant": "That no chain of waits can close is a statement about all interleavings of all loops.", "anchors": ["core/node/system_impl.go:154-187", "core/actor/actor_runtime_impl.go:172-190", "core/actor/actor_runtime_impl.go:280-377"]}
