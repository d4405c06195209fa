# Formal model of pojol/braid: design

Everything is in `rocq/theories` (Coq 8.16.1, `-Q theories Verif`).
The Go source in `/repo` is read as text only; nothing is extracted or run.

## Conventions

* `XModel.v` — the model of one part of the code, function by function.  Every
  definition cites file and lines and states its simplifications.  No proofs.
* `XSpec.v` — where a property needs vocabulary that is not the model's own
  (for example "the documented set of a cron field", "least loaded"), a small
  separate specification.
* `XProofs.v` — lemmas.
* `XProps.v` — the theorems named in `MANIFEST.json`, nothing else.  Each is
  closed by `exact`, followed by `Print Assumptions`, with a concrete
  non-trivial `Example` meeting the hypotheses beside it.

Concurrency: a concurrent object is a state machine whose steps are the atomic
actions of the Go code (atomic instructions, channel operations, critical
sections).  `step : state -> label -> option state` is a total function
(`None` = the step is not enabled), a schedule is a list of labels and
`run init sched = Some s` means that the schedule is a legal interleaving.
"For all interleavings" is universal quantification over `sched`, proved by
induction.  Go's atomics and channels are sequentially consistent, which is
what this interleaving semantics assumes; data races in the Go sense are
outside the model except where a property is about them.

Panics, errors, blocking and exhausted fuel are explicit outcomes, never
defaults.  Arithmetic is wrapped explicitly where the code's behaviour can
depend on overflow (wire codec); elsewhere integers are unbounded and the
definition says so.

Names: `…_refuted` is a proof that the full property is false of the model
(a witness schedule or state, checked by computation); `…_partial` is the
strongest form proved when the full one is false or out of reach.  A property
with such theorems has status `partial` in the manifest.

## Trusted base

1. Coq 8.16.1's kernel (and `vm_compute` conversion, which is part of it).
2. What `Print Assumptions` reports under each theorem.  See the section
   "Assumptions" at the end: there are none.
3. The correspondence between the models and the Go text, by inspection.
4. The semantics assumed for what is not in the repository: Go's memory model
   and channels, `sync`, `time`, Redis commands, gRPC delivery, JSON.  Each is
   written down as a small executable definition in the model that uses it.

## What is modelled and what is not

Modelled: `router/router.pb.go` (encoders, sizes, decoders, skip),
`router/msg` (builder, header copy, custom fields), `lib/mpsc`,
`lib/unbounded`, `lib/warpwaitgroup`, `core/actor` (chain, future, runtime
loop, timers, re-entry, header stamping), `core/node/system_impl.go`
(register, unregister, call/send resolution, local call),
`core/node/system_acceptor.go: Routing`, `core/addressbook`, `lib/dismutex`,
`lib/pubsub`, `lib/timer`, `lib/grpc/client.go` (slots, connections),
`lib/tracer/slow_reporter.go`, `core/entity.go`, `utils/file` (names),
`lib/errcode`, `lib/token` (relative to an abstract signature), `lib/log`,
`lib/span`, `lib/tracer`, `core/node/node_process_impl.go`, the options and the
shutdown of the gRPC server, the loaders and factories of actors, `3rd/mgo`
(options, clients, pass-through of collections) and the configuration of
`3rd/redis`.  The table "Where each model stops" has the lines and what each
model leaves out.

Not modelled: the Redis command wrappers (`3rd/redis/client.go` 54-479, each
passes its arguments to the go-redis method of the same name), the gRPC
transport itself, the actors of the tests other than their transaction, test_block, reenter and chain, generated protobuf
descriptors and reflection-based methods (`String`, `XXX_Merge`).

## Plan per property

| Id | Modelled | Method |
|----|----------|--------|
| C01 | encoders as backward writers into a buffer, decoders as index loops with 64-bit wrap-around (`WireModel`) | functional correctness: backward writer = field list, decoder inverts field list; induction over fields and varint length |
| C02 | `Size`, `sov`, writers with explicit out-of-range outcome | equality of `Size` with the bytes written; writer never leaves the buffer |
| C03 | decoders with outcomes ok / error / panic (index out of range) / out of fuel | induction on remaining input: panic and out-of-fuel unreachable |
| C04 | default branch and `skipRouter` with group depth | induction over an inductive grammar of well-formed unknown fields |
| C05 | decoders started from a non-empty value | fold law: decoding a concatenation = decoding the second on top of the first; `merge` is specified separately |
| C06 | as C03 | length argument on the single length-delimited field |
| C07 | tag dispatch | decoding a well-formed prefix then the bad tag |
| C08–C11 | heap of nodes, head/tail pointers, one program counter per producer and for the consumer (`MpscModel`) | inductive invariant: the chain from tail, with gaps only at in-flight links, spells the not-yet-popped pushes; counter = linked-and-counted minus popped; token invariant. C11 is false: witness schedule plus the quiescent version |
| C12, C13 | channel of capacity 1, backlog, lock, two-step `Put` (`UnboundedModel`) | invariant by induction over schedules |
| C14, C15 | futures with callbacks and spawned goroutines (`FutureModel`) | invariant by induction. C15 is false for `Then` after completion: witness plus version for pending futures |
| C16 | chain execution over arbitrary handlers (`ChainModel`) | induction over the handler lists |
| C17–C23 | actor loop, two queues built on `MpscModel`, `closed` flag, shutdown and close channels, check-close goroutine (`ActorModel`) | invariants by induction over schedules; C22 and C23 false: witness schedules plus restricted versions |
| C24 | handler registration map | induction over registration histories |
| C25, C26, C85, C86 | call, watcher, loop and continuation goroutines around two futures, for any number of calls (`ReenterModel`) | invariant relating each call's state to its history; progress by a decreasing measure; continuations started at most once and always startable after completion (`ReenterLive`); C26, C85, C86 and C25's context error false: witnesses |
| C27–C29, C83, C84 | timer goroutine, ticker of capacity 1, timer channel, loop (`TimerModel`), explicit clock | C27, C28, C83, C84 false: witnesses plus restricted versions; C29 invariant over timed schedules |
| C30, C31 | header stamping of `Runtime.Call`, `System.Call`, `Received` (`CallModel`) | induction over hop lists |
| C32 | `Call`/`Send`/`Routing` resolution, one step per access to the node's maps or the store, on top of the registration model (`SysModel`) | invariant over schedules; `_partial` for '?' and for errors, with `_refuted` witnesses (actor of another type; remote failure returned as nil); reaching the target by construction of a schedule (`SysLive`) |
| C33 | mailboxes, running handlers, wait-group counters (`CallModel`) | invariant: counter = queued + running messages of the tree; a root call whose tree is handled can return (`CallLive`) |
| C34 | outcomes of local and remote calls | false: witnesses; plus the error cases that are reported |
| C35–C37, C63 | `Register` split at its atomic steps over several callers and nodes (`RegModel`) | invariants for non-overlapping calls; witnesses for overlapping ones |
| C38–C45 | Redis hashes and sets, address-book operations as command lists (`AddrModel`) | invariant over operation histories; crash = prefix of commands; argmin lemmas; false: C39, C40, C43, C45 with witnesses and restricted versions |
| C46, C47 | lock key with expiry and clock (`LockModel`) | invariant over timed schedules |
| C48–C50 | Redis streams with consumer groups and pending lists, one step per command, any number of nodes, topics, channels and consumers; lost commands and replies; crashes; the buffer is `UnboundedModel` (`PubsubModel`) | invariants over schedules (order, at most once, fate of each message, progress); `_refuted`: placeholder delivered, ReadModeBeginning after Close, two handlers, deletion by another channel, crash after reading; the losses are proved for every continuation |
| C51 | topic map under a read-write lock, one step per access, any number of callers (`TopicModel`) | invariant over schedules; every call returns by a measure |
| C52, C53 | parser on strings, loops with explicit divergence (`CronModel`) | C52 against a set-based specification of written expressions (false for wrapped ranges with a step: witness, and what the code does instead); C53 false: step 0 never ends, negative steps need 2^63/|step| rounds; all other strings end |
| C54–C56 | builder over a heap of headers, custom map over a document tree, numbers rounded to binary64 with the standard library's `SpecFloat` (`MsgModel`) | induction over write histories and over nested values and documents; false parts witnessed |
| C57 | semaphore channel, connections (`ClientModel`) | invariant over schedules: cap, slots, every call can finish; `_refuted` for CallWait, which takes no slot |
| C58 | bounded queue, worker, close (`ReporterModel`) | invariant over schedules |
| C59 | version list (`UtilModel`) | false for unsorted registration: witness; proved for ascending registration |
| C60, C61 | string functions, error values (`UtilModel`) | direct induction; false part of C61 witnessed |
| C62 | JWT over abstract text encodings and keyed hash (section variables, an instance is given) (`TokenModel`) | case analysis of the parser; round trip relative to inverse encodings; ids that are not UTF-8 are changed: witness |
| C64 | subscription: handler map, mailbox | witness for differing event names and for the registration race; restricted version |
| C65 | timer-service task loops (`TaskModel`) | invariant when started and stopped while idle and without panics (`_partial`), exact count of loops; `_refuted`: panic, restart during the handler, stop before the due time |
| C66 | wrapper shared by pointer between calls (`CallModel`) | witness; restricted version for wrappers used by one call at a time |
| C67 | `Exit` inside the loop's user code (`ActorModel`) | false in every state: proved for all schedules; from outside `Exit` can always return |
| C68 | goroutine left by an earlier call, `Done` channel replaced (`CallModel`) | witness; restricted version for single use |
| C69 | as C51, nil result used by `Pub` (`TopicModel`) | witness; invariant for calls that start after the topic was returned to somebody (`_partial`) |
| C70 | crash prefix, new process, `Clear` (`AddrModel`) | witness; repaired for every crash point of Unregister and for those of Register at which Clear can see the type |
| C71 | `Unregister` on a node without the actor (`RegModel`) | witness; every running actor is listed while ids are named only by their node |
| C72 | overlapping calls, actor status Running/Exiting/Stopped (`RegModel`) | witness for double Exit; no panic in any execution whose calls about one id do not overlap |
| C73 | same (`LockModel`) | two witnesses: lease expired during the section; lease counted from the return of Lock |
| C74 | same (`LockModel`) | witness: four attempts within 2.1 s of a crashed holder's 10 s lease; every request that meets a live key is refused |
| C75, C76 | `MsgModel` (msgpack result given, JSON document null) | witnesses; the error is reported and only Custom is touched; null is the only document that crashes |
| C77 | heap of headers (`MsgModel`) | witness for WithResHeader; invariant over all other call sequences |
| C78 | connection table, dials (`ClientModel`) | invariant over schedules where no address is dialled twice at once (`_partial`); `_refuted`: two first calls, or an address listed twice, lose a connection |
| C79 | option check (`ClientModel`) | invariant for Call (`_partial`); `_refuted`: CallWait passes a nil option on and the process dies |
| C80 | as C58, retain and release events | invariant over schedules (`_partial`); `_refuted`: a dropped span is retained and never released |
| C81 | as C58, the gauge | invariant over schedules |
| C82 | as C65, nil dereferences | invariant for tasks of a service whose loop has begun (`_partial`); `_refuted`: stop before that, and panics outside a service |
| C87 | as C32, forwards per message | invariant over schedules with no registration under way (plain ids); `_refuted` for '?': any number of round trips, by induction |
| C88 | as C32, interleaved with the steps of `Register` and `Unregister` | invariant over schedules (`_partial`: the node was seen without the actor); `_refuted`: call during `Register` |
| C89 | as C32, nil constructor | invariant over schedules (`_partial`: only with an unknown type); `_refuted` by a concrete schedule |
| C90 | as C48, `Close` as three commands | other consumers stay known to the group and a group is destroyed only if Close found it empty (`PubsubMore`); after the group is destroyed nothing is handed out until the next subscription (`_partial`); `_refuted`: a closed subscription still receives, and Close ends a subscription made meanwhile |
| C91 | as C48, `Topic.Close` as three commands | undisturbed calls delete only empty topics (`_partial`); `_refuted`: Sub and Pub between check and removal |
| C92 | RegModel; per-call trace invariant and an ownership invariant for the started actor (RegTrace), all interleavings. | proved |
| C93 | RegModel; per-call trace invariant for all interleavings; that nothing with the id runs on return holds when calls about one id do not overlap on a node, refuted otherwise. | partial |
| C94 | ClientModel: the addresses of calls and of connections are read off the schedule (ClientSpec `called`, `opened`) | invariant over schedules (`ClientTrace`) |
| C95 | ClientModel: events and transport answers of one call (ClientSpec `own`, `answers`) | per-call trace invariant (`ClientTrace`) |
| C96 | `TimerModel`, from every reachable state (`TimerLive`) | invariant relating goroutine, ticker, channel and loop state of an active timer; a schedule of own work is constructed by induction on the number of firings |
| C97 | `TaskModel`, from every reachable state (`TaskLive`) | invariant: a running task has a loop that is not going to end; a schedule of loop work is constructed by induction on the number of runs |
| C98 | `PubsubModel` | invariant: an entry published before the group exists stays at or below the group's last delivered id (`PubsubMore`) |
| C99 | `PubsubModel` | from every reachable state (`PubsubMore`); the last clause (an error means not published) is false: `_refuted`, the reply was lost |
| C100 | `LoaderModel` | option maps in a heap shared by the builders of a type; exact description of what GetOpt shows by invariant; the claim is false (`_refuted`) and holds when no other builder of the type sets options |
| C101 | `LoaderModel` | calls with beginning and end, a lock per builder; false (`_refuted`); the cause of every crash is proved to be an overlap on one type |
| C102 | `LoaderModel` | invariant over events |
| C103 | `LoaderModel` with `MsgModel` | the message through both JSON documents; set options proved to arrive, unset ones false (`_refuted`) |
| C104 | `LoaderModel` | permutation of the factory's map, induction over the loop |
| C105 | `ServiceModel` over `TaskModel` | map and calls as a machine; invariant linking lookups with the history; every task projects to a run of `TaskModel` |
| C106 | `ServiceModel` | invariant of the loops over the map |
| C107 | `ServiceModel` over `TaskModel` | false (`_refuted`); lost tasks proved unreachable and running for ever; registered ones proved stoppable |
| C108 | `ServiceModel` | false (`_refuted`, four ways); remaining causes proved when changes overlap no other call; writers exclude each other (`C108_writers`) |
| C109 | `ServiceModel` | progress from every reachable state |
| C110 | `ShutModel` | machine of WaitClose, Exit and the calls beside it; invariants over history; progress without the clock; actors registered during the shutdown are missed (`_refuted`) |
| C111 | `ShutModel` | invariant of the requests and of GracefulStop |
| C112 | `ShutModel` | false (`_refuted`, for every length of time); progress within 30 seconds proved once requests are answered |
| C113 | `ShutModel` | simulation of a run by the run without later signals |
| C114 | `ShutModel` | invariant: the counter is the number of goroutines not through |
| C115 | `ShutModel` | false (`_refuted`, two ways); causes proved; no crash when no call overlaps |
| C116 | `SpanModel` | the events of a call and of a request are prefixes of a fixed list, by invariant |
| C117 | `SpanModel` | contexts as a relation over events, shown equal to the state; first calls proved; later ones are children of the call before (`_refuted`, `C117_next`) |
| C118 | `SpanModel` | invariant: a context descends from all that it held, when calls on one wrapper do not overlap in Begin; otherwise false (`_refuted`) |
| C119 | `ContextModel` | the read and the write of WithValue are two steps; invariant relating layers to returned calls when none overlap; otherwise false (`_refuted`), with what remains (`C119_last`, `C119_some`) |
| C120 | `ContextModel` | invariant: the first layer for each private key is the one of Init |
| C121 | `ContextModel` | false for every number (`C121_refuted`, by induction); bound by the number of calls proved |
| C122 | `RedisModel` | induction over options; false across builds, around WithAddr and for WithConnectTimeOut (`_refuted`) |
| C123 | `RedisModel` | case analysis of a build; false when the server does not answer (`_refuted`) |
| C124 | `RedisModel` | induction over commands; exact result proved, claim false after a failed command (`_refuted`) |
| C125 | `LogModel` | case analysis over functions with arithmetic on levels |
| C126 | `LogModel` | same; false for a level above panic and for SystemLog (`_refuted`) |
| C127 | `LogModel` | induction over options; the form of the caller is false (`_refuted`), what it is instead is proved (`C127_caller`) |
| C128 | `LogModel` | induction over options with memory for configurations; false for a shared one (`_refuted`), every change characterised (`C128_confs`) |
| C129 | `LogModel` | case analysis; false for WarnF and ErrorF (`_refuted`), exact outputs proved (`C129_loud`) |
| C130 | `LogModel` | loop invariant; exact result; false for repeated keys (`_refuted`) |
| C131 | `LogModel` | induction over registrations |
| C132 | `LogModel` | loop invariant over the scan |
| C133 | `AcceptModel` | induction over interceptors |
| C134 | `AcceptModel` | case analysis over requests and outcomes; an error of the call is lost (`_refuted`) |
| C135 | `AcceptModel` | induction over options and interceptors; false for stream interceptors (`_refuted`) |
| C136 | `TracerModel` | induction over options and over the import of factories |
| C137 | `TracerModel` | false (`_refuted`); the exact condition for a span to be sent is proved |
| C138 | `TracerModel` | false (`_refuted`); exact conditions for the panic and the crash are proved |
| C139 | `MgoModel` | induction over options and connections; false for a repeated address (`_refuted`), exact result proved |
| C140 | `MgoModel` | invariant over calls; false after a first Build (`_refuted`), exact result proved |
| C141 | `MgoModel` | false (`_refuted`); by induction over calls no span is ever begun |
| C142 | `FileModel` | induction over writes; false for WriteJSON over a longer file (`_refuted`), exact result proved |
| C143 | `NodeModel` | induction over options |
| C144 | `NodeModel` | same; false for the weight and for Init (`_refuted`) |
| C145 | `NodeModel` | invariant over calls; false for ids (`_refuted`) |
| C146 | `NodeModel` | invariant over calls, interface values with typed nil pointers; false before the first build (`_refuted`) |
| C147 | `WgModel` | invariant over interleavings, arithmetic modulo 2^32 |
| C148 | `WgModel` | same invariant, case analysis of the returns |
| C149 | `WgModel` | invariant: waiters = counted + released; at zero somebody is about to release |
| C150 | `WgModel` | false (`_refuted`); invariant under the rules of sync.WaitGroup |
| C151 | `WgModel` | false (`_refuted`); proved when no call is between its halves |
| C152 | `RoundModel` | case analysis over all outcomes of arbitrary user functions |
| C153 | `RoundModel` | false (`_refuted`, for every number of rounds); exact condition for a round, induction over rounds |
| C154 | `RoundModel` | false (`_refuted`, two ways); exact condition proved |
| C155 | `DialModel` | induction over the options |
| C156 | `DialModel` | false (`_refuted`) if a dial option sets an interceptor; proved without one, and exactly which one runs with one |
| C157 | `DialModel`, `ClientModel` | false (`_refuted`) for five of nine options, which can be left out anywhere; the other four can be told apart |
| C158 | `PsoptModel` | false (`_refuted`, two ways); proved for the first process to ask while there is no stream; invariant: every time to live comes from a direct creation |
| C159 | `PsoptModel` | false (`_refuted`) for a later subscription; proved for the first one of a group, invariant over what follows; after the stream is lost all subscriptions of the same processes fail |
| C160 | `PsoptModel` | false (`_refuted`): callbacks can be left out of any history; induction over histories |
| C161 | `MapsModel` | false (`_refuted`, three ways); invariant: a crash needs a call from outside the loop, or one of Init while messages or timers already arrive |
| C162 | `MapsModel` | false (`_refuted`, Init and Exit); invariant: a crash needs a call from outside the loop, Init still running, or Exit |
| C163 | `ScanModel` | false (`_refuted`, Register and Actors); invariant: a crash needs a loop without the lock and another call that writes |
| C164 | `ScanModel` | invariants relating the map to the history, and every loop under way to the history since its call |
| C165 | `ScanModel` | the invariants of C164, and one for the lock: held only by a call that has not returned |
| C166 | `WrapModel` | invariant: every wait group has one context that began it, and contexts carry the group of the tree they belong to; trees are derivations over the events |
| C167 | `WrapModel` | false (`_refuted`); proved instead that Swap leaves both sides where they are |
| C168 | `WrapModel` | invariant: wrappers share their messages exactly if they are the same but for swaps, and every message holds what was last set |
| C169 | `WrapModel` | false (`_refuted`); proved instead that runs which differ only in options are the same |
| C170 | `TccModel` | false if a participant is closed (`_refuted`); invariant: sent = handled followed by waiting messages, and a plan of what the coordinator has sent at each point; both confirmed at the return if nobody refused |
| C171 | `TccModel` | the same invariant: sent, hence handled, messages of a transaction are a beginning of try, confirm |
| C172 | `TccModel` | false for two transactions at once (`_refuted`); invariant: remembered tries are those neither confirmed nor cancelled, with the value shown before |
| C173 | `NestModel` | false at 2^53 and for requests that carry an object (`_refuted`); induction on the actors still to come, over the theorems on custom fields |
| C174 | `NestModel` | false of the request and of the earlier fields of the response (`_refuted`); the same induction gives what each holds afterwards, for every placement |
| C175 | `MsgModel` | induction on the calls |
| C176 | `CalcModel` over `MsgModel` and `NestModel` | false for responses that carry an object (`_refuted`); composition of the theorems on custom fields |
| C177 | handlers, futures, loop and continuations of any number of messages over one int32 (`CalcModel`) | invariant: the variable is eight and ten per second continuation run, once a first one has; false after a failed call and beyond an int32 (`_refuted`) |
| C178 | `CalcModel` | no state without a step while a continuation is to come, a measure bounds the steps, each runs once and in order; false if the context ends: the process dies (`_refuted`) |
| C179 | pickers, registrations command by command, over the store of `AddrModel` (`SpreadModel`) | false when the two loops over the nodes differ in order, and when choices overlap with registrations (`_refuted`); otherwise invariant: the node chosen is a lightest one until its weight is added |
| C180 | `SpreadModel` | invariants over jobs: records by executed commands, weights as a sum over jobs |
| C181 | loops of any number of actors, handlers that unregister others (`MutualModel`) | false for rings of every size (`C181_ring_refuted`); proved that a ring of waits is the only reason for a call that does not return |
| C182 | `MutualModel` | no ring under a ranking; measure over messages, handlers and closing; a returned call leaves the actor closed and out of the map |

## Where each model stops

| Model | Code | Left out or simplified |
|-------|------|------------------------|
| `WireModel` | `router/router.pb.go` | `String`, `Reset`, descriptors, `XXX_` methods |
| `MpscModel`, `UnboundedModel`, `FutureModel` | `lib/mpsc`, `lib/unbounded`, `core/actor/future.go` | memory order weaker than sequential consistency |
| `ChainModel`, `EventsModel`, `ActorModel` | `core/actor` chain, runtime loop, Exit | logging, tracing, what user handlers compute (any outcome is allowed) |
| `CallModel` | `Runtime.Call`, `System.Call/Send` on one node, `lib/warpwaitgroup` | contents of messages other than the header fields concerned |
| `AddrModel`, `RegModel` | `core/addressbook`, `System.Register/Unregister` | each Redis command is a step, pipelines are split at every command; JSON of records is the identity; counters are unbounded; the unlocked scan of the id map is one step |
| `SysModel` | `System.Call/Send`, `Routing`, `findLocalActor` | the reads of one address-book lookup are one step; what becomes of a delivered message is `CallModel`; tracing |
| `LockModel` | `lib/dismutex` | clocks of the nodes and of Redis run at one speed |
| `CronModel`, `UtilModel`, `MsgModel`, `TokenModel` | `lib/timer/timer_express.go`, `core/entity.go`, `utils`, `lib/errcode`, `router/msg`, `lib/token` | JSON is a document tree; text encodings and HMAC of tokens are section variables with an instance |
| `ClientModel`, `ReporterModel`, `TaskModel`, `TimerModel`, `ReenterModel` | `lib/grpc/client.go`, `lib/tracer/slow_reporter.go`, `lib/timer`, `core/actor/actor_timer.go`, `ReenterCall` | wall-clock time only where a property speaks of it |
| `ContextModel` | `core/actor/actor_context_impl.go` 15-22, 86-93, 103-109, `core/actor/actor_runtime_impl.go` 60-65 | cancellation, what methods do after the look-up (other models) |
| `RedisModel` | `3rd/redis/client.go` 13-52, `client_opt.go` 12-107, `client_utils.go` 11-24 | the commands, go-redis's own defaults, overlapping builds |
| `LogModel` | `lib/log/helper.go` 24-26, 51-115, 121-170, `options.go` 61-100, 130-213, 228-273, 279-287, `field.go` 33-48, `flow.go` 22-58 | encoding, rotation, errors of writing, overlapping calls of SetSLog and RegisterLogField |
| `AcceptModel` | `lib/grpc/server.go` 26-57, `server_opt.go` 18-51, `core/node/system_acceptor.go` 48-114 | grpc itself, listening and stopping, stream handlers |
| `TracerModel` | `lib/tracer/jaegertracing.go` 39-96, 114-127, `opts.go` 10-79, `slow_reporter.go` 59-83, 139-161 | jaeger itself beyond the two samplers, transports, floating point rates |
| `MgoModel` | `3rd/mgo/mgr.go` 14-78, `mgr_opts.go` 9-60, `collection.go` 14-55 | the driver, operations themselves, Collection while Build runs |
| `FileModel` | `utils/file/file.go` 49-87 | errors of the file system, modes |
| `NodeModel` | `core/node.go` 19-82, `core/node/node_process_impl.go` 15-57, `core/node/system_impl.go` 46-89, `lib/grpc/server.go` 59-70 | clients of Redis and gRPC, overlapping calls, what the loader does |
| `WgModel` | `lib/warpwaitgroup/warpwaitgroup.go` 9-38, and sync.WaitGroup of Go 1.22 | the last store and the releases are one step; the number of waiters does not wrap |
| `RoundModel` | `lib/timer/timer_tick.go` 51-78, `timer.go` 26-31, 84-103 | handlers of the service changed while a round runs; loops and tickers (`TaskModel`) |
| `DialModel` | `lib/grpc/client_opt.go` 10-95, `client.go` 37-73, 97-109 | changes to the global DefaultClientParm; how grpc dials; calls (`ClientModel`) |
| `PsoptModel` | `lib/pubsub/ps_opts.go` 25-56, `ps_topic.go` 24-68, 85-102, 141-157, `ps_channel.go` 27-44, `ps_mgr.go` 41-60, `core/node/system_impl.go` 451-453 | entries; calls that interleave and commands that fail (`PubsubModel`, `TopicModel`); that an error of EXISTS counts as no stream |
| `MapsModel` | `core/actor/actor_runtime_impl.go` 52-71, 81-87, 95-126, 128-137, 145-157, 280-377 (which goroutine uses the maps of handlers and timers, and when) | what the handlers do otherwise; what is in the maps (`ActorModel`, `TimerModel`); a crash, which Go's runtime may miss, is taken as certain |
| `ScanModel` | `core/node/system_impl.go` 99-195 (uses of the map of actors), 230-232, 247-249, 455-465 | types and what Register does between its loop and its write (`SysModel`, `RegModel`); 277-286 and 477, loops under the lock and of the shutdown; a crash, which Go's runtime may miss, is taken as certain |
| `WrapModel` | `router/msg/msg.go` 47-83, 104-107, 115-133, 137-142, `core/node/system_acceptor.go` 97 (contexts, wait groups and messages that wrappers share) | headers (`MsgModel`), Err and Done; a nil wrapper; what else a context carries |
| `TccModel` | `tests/mock/mock_actor_a.go` 119-164, `tests/mock/mock_actor_b.go` 76-124, `tests/mock/mock_actor_c.go` 52-101, `tests/mock/mock_tcc.go` (the transaction of the mock actors on one node, over FIFO mailboxes) | a closed coordinator; a participant registered again; status, currentValue and createdAt |
| `NestModel` | `tests/mock/mock_actor_a.go` 106-117, `tests/mock/mock_actor_b.go` 63-74, `tests/mock/mock_actor_c.go` 40-50, `core/node/system_impl.go` 293-361, `core/node/system_acceptor.go` 92-114 (what a nested call does to the message, each hop on the same node or another) | failures of calls; waiting and time; the wait group |
| `CalcModel` | `tests/mock/mock_actor_a.go` 33-50, 86-104, `tests/mock/mock_actor_b.go` 33-44, `core/actor/actor_reenter_impl.go` 24-57, `core/actor/actor_runtime_impl.go` 191-278, 320-353 (the re-entrant events and their continuations) |
| `MutualModel` | `core/actor/actor_context_impl.go` 60-67, `core/node/system_impl.go` 154-187, `core/actor/actor_runtime_impl.go` 172-190, 280-377 | timers and re-entry actions (`ActorModel`), the queue's cells (`MpscModel`), ids used again (`RegModel`), the address book (`AddrModel`) |
| `SpreadModel` | `tests/mock/actor_dynamic_picker.go` 33-53, `tests/mock/actor_dynamic_register.go` 30-54 with `core/addressbook/addressbook_impl.go` 45-96, 239-299 | the rate limiter, options (`LoaderModel`), limits (`RegModel`), Unregister and the death of processes |
| `SpanModel` | `core/node/system_impl.go` 207-220, 274, 373-386, 440, `lib/span/span_call.go` 50-98, `lib/span/span_grpc.go` 39-113 | tags, sampling, errors of Inject and Extract, metadata set by the user; all nodes trace |
| `ShutModel` | `core/node/node_process_impl.go` 59-94, `core/node/system_impl.go` 467-492, Register and Unregister as far as the map and Exit go | Redis in Register, Unregister and Clear (C35-C45); signals before Notify; refusal of requests by GracefulStop before it returns |
| `ServiceModel` | `lib/timer/timer.go` 86-181 (the service) | exception, begin and end handlers; `handlerMap` (unused) |
| `LoaderModel` | `core/actor/actor_build_impl.go`, the loader, factory and on-demand actors of `tests/mock` | constructors, rate limiter, routing of the messages |
| `PubsubModel`, `TopicModel` | `lib/pubsub` | the Redis set of topic names; entry ids come from one counter |

## Assumptions

`Print Assumptions` stands under every theorem of the `XProps.v` files and
answers "Closed under the global context" for each of them: no axiom of the
standard library is used, and none is added.  Section variables (oracles such
as the sampling decision of the reporter, the factory of the system, the text
encodings of tokens) are universally quantified in the closed theorems.

## Findings

Each line is a property of the plan that is false of the code as modelled;
the theorem named is a proof of it with a concrete execution.

* Mailbox: a push that has returned is invisible while an older push is between
  its two steps (`C11_completed_push_visible_refuted`).
* Futures: `Then` on a completed future gives a future that is never resolved
  (`C15_chained_future_resolved_refuted`).
* Exit: messages accepted before Exit are dropped, a sender past the closed
  check pushes after it, Exit returns while the last handler runs, a second
  Exit panics, Exit from the actor's own code never returns (`C22_…`, `C23_…`,
  `C67_…`).
* Calls: the previous actor's type is lost between nodes (`C30_…`); timeouts,
  handler failures and remote routing failures come back as nil (`C34_…`,
  `C32_remote_error_refuted`); a wrapper shared by two calls changes its event
  (`C66_…`); a wrapper cannot be used again after a timeout (`C68_…`).
* Resolution: '?' may reach an actor of another type (`C32_wildcard_type_refuted`)
  and may bounce between nodes for ever (`C87_wildcard_refuted`); a call during
  Register removes the fresh record (`C88_refuted`); a stale record and an
  unknown type bring the node down (`C89_refuted`).
* Registration: overlapping Register calls make two actors with one id
  (`C35_…`) and exceed the limit (`C36_…`); NodeUnique is enforced only together
  with a global limit (`C37_…`); an id used on two nodes is not refused and the
  record is overwritten (`C63_…`); Unregister on another node removes the record
  of a live actor (`C71_…`); overlapping Unregister calls panic (`C72_…`);
  after overlapping Registers, Unregister ends only one actor (`C93_…`).
* Address book: Unregister charges the caller's node (`C39_…`); crashes leave a
  member without record and wrong weights (`C40_…`); GetLowWeightNode pairs
  weights with the wrong nodes (`C43_…`); Clear leaves records behind (`C45_…`,
  `C70_…`).
* Lock: the lease may end inside the section, and is counted from the request,
  not from the return of Lock (`C73_…`); a restarted node cannot take the lock
  its predecessor held (`C74_…`).
* Contexts of actors: WithValue reads and writes the context in two steps, so of two calls
  that overlap one may be lost, though it returned (`C119_refuted`); each call adds a
  layer for good, so look-ups of the system get slower with every call (`C121_refuted`).
* Redis client: options change the configuration of the package, so they stay for later
  builds (`C122_earlier_refuted`); WithAddr discards the options before it and the defaults
  (`C122_addr_refuted`); WithConnectTimeOut limits the life of connections, not connecting
  (`C122_connect_refuted`); a build whose Ping fails replaces the client all the same
  (`C123_refuted`); GetCmdsByteSlice never returns an error, a failed command only cuts
  the list short (`C124_refuted`).
* Log: the encoder copies its configuration before WithCaller and WithCallerFunc change it,
  so they do not shape the caller (`C127_refuted`), but change a configuration of the user
  for later loggers (`C128_refuted`); WarnF and ErrorF print to standard output also when
  the logger writes to a file only, and otherwise twice (`C129_refuted`); SystemLog drops
  messages above error (`C126_system_refuted`); PanicF returns when its level is disabled
  (`C126_refuted`); TaDataFields drops all but the last of fields with one key
  (`C130_refuted`).
* Server: stream interceptors are stored but never installed (`C135_stream_refuted`); an
  error of the call is logged and not returned, so that the caller on the other node sees
  a success (`C134_error_refuted`).
* Tracer: the limits for slow requests and spans are never read (`C137_refuted`); with the
  default sampler a rate outside 0..1 is accepted and the first span that ends crashes
  the process (`C138_refuted`).
* Mongo: a connection whose address repeats is dropped though its name is new, and its use
  panics (`C139_refuted`); a second Build does nothing and returns nil, also after a first
  that panicked (`C140_refuted`); the tracer is not handed to collections (`C141_refuted`).
* Files: WriteJSON does not truncate (`C142_refuted`).
* Node: the weight of a node and the options of Init have no effect
  (`C144_weight_refuted`, `C144_init_refuted`); two nodes with one id are accepted
  (`C145_id_refuted`); before the first build Get gives an interface that is not nil and
  holds a nil pointer (`C146_nil_refuted`).
* Wait group: an Add between the last Done and the released waiter's last look makes Wait
  panic, in a goroutine of `localCall` that nobody recovers (`C150_refuted`); Count, by which
  `localCall` decides who waits, can be 0 while Wait blocks and 1 after Wait has returned
  (`C151_blocks_refuted`, `C151_returns_refuted`).
* Rounds of tasks: IsEnd is never reset, so a begin handler that sets it once stops the task's
  function for ever (`C153_refuted`); a panic of the exception handler, or any panic of a task in
  no service, ends the process (`C154_handler_refuted`, `C154_alone_refuted`).
* Client options: pool sizes, idle time, call timeout and stream interceptors are read nowhere
  (`C157_idle_refuted`); a dial option that sets an interceptor replaces all others, the
  tracer's included (`C156_replaced_refuted`).
* Topic options: System.Sub drops its options (`C158_system_refuted`); a time to live is ignored
  if the stream is there (`C158_exists_refuted`); the read mode of a later subscription to a
  channel is ignored without an error (`C159_later_refuted`); once the stream is lost no process
  that knows the topic can subscribe (`C159_gone`); no callback is ever called
  (`C160_idle_refuted`).
* Unlocked maps of an actor: Sub in Init lets messages arrive before it stores the handler, so
  the loop reads the map while Init writes it (`C161_subscription_refuted`); so does a timer made by
  Init whose callback registers a handler (`C161_timer_refuted`); Exit walks the timers
  while the last handler still runs (`C162_exit_refuted`).
* Map of actors: the loops of Actors and of Register (for a type that is unique and limited) take
  no lock, so either can bring the process down while another call registers or unregisters
  (`C163_actors_refuted`, `C163_register_refuted`).
* Wrappers: Swap, whose comment says that it exchanges request and reply, keeps both
  (`C167_refuted`); NewBuilder never looks at its options (`C169_refuted`, `C169_never`).
* Transactions of the mock actors: if one participant is closed, the other keeps the new value
  and its open try for ever, and Call returns nil (`C170_refuted`, `C170_half`); cancelling two
  transactions in the order they were made leaves the value of the first (`C172_refuted`).
* Nested calls: an actor on the same node works on the request of its caller, so the caller finds
  it changed; over another node it does not, but then the earlier fields of the response are gone
  (`C174_refuted`).
* Re-entrant calls: if the context ends first, the continuation gets a wrapper without a response,
  and reading a custom field of it ends the process (`C178_context_refuted`); after a failed call
  it is run all the same (`C177_failed_refuted`).
* Actors that unregister one another: any number of handlers that unregister each other in a ring wait for
  ever, and their actors with them (`C181_ring_refuted`); nothing in the code or its comments warns of it.
* Actors on demand: whatever is chosen before the first registration has reached the address book goes to
  the same node (`C179_overlap_refuted`); with the orders of the loops mixed, a node may be chosen for ever
  (`C179_orders_refuted`).
* Tracing: Call writes its span into the context of the caller's wrapper and leaves it
  there, so the next call of a handler becomes a child of the one before, which is
  finished (`C117_refuted`); two calls at once on one wrapper can swap contexts, and the
  remote part of one is traced below the other (`C118_refuted`).
* Shutdown: the 30 second limit is looked at only after GracefulStop and Clear, so one
  request that hangs holds the process up for ever (`C112_limit_refuted`); the map of
  actors is walked without its lock, so a Register that returns meanwhile ends the
  process (`C115_overlap_refuted`); an Unregister of an actor that the shutdown is
  ending closes a channel twice (`C115_twice_refuted`); an actor registered after the
  walk is not ended though all are reported to have ended (`C110_late_refuted`).
* Timer service: a task that is removed, or whose id is given to another task, while
  it runs can never be stopped again (`C107_lost`); `StopTask` looks the id up twice
  without the lock and dereferences nil if it was removed in between
  (`C108_removed_refuted`); loops over the map are not locked
  (`C108_overlap_refuted`); an interval of zero is accepted and ends the process on
  start (`C108_interval_refuted`).
* Builders: all builders of a type share one option map: options leak from one
  actor to the next (`C100_refuted`, `C103_leftover_refuted`) and two goroutines
  with a builder each can stop the process (`C101_refuted`).
* Publish/subscribe: the placeholder of newTopic can be delivered, messages are
  delivered again with ReadModeBeginning, two handlers reorder (`C48_…`); one
  channel deletes what another has not read (`C49_refuted`); a crash after
  reading loses messages (`C50_refuted`); Pub on a topic not created here
  dereferences nil (`C69_refuted`); Close does not end its own subscription and
  can end another one (`C90_…`); Topic.Close can delete a topic in use
  (`C91_refuted`); Pub may return an error for a message that is delivered
  (`C99_error_stored_refuted`); Sub registers its callback under the channel's
  name instead of the event's (`C64_…`).
* Timers: a cancelled timer fires once more, or for ever when cancelled during
  its due time (`C27_…`); interval 0 and Exit during the due time crash
  (`C28_…`); NextTrigger is stale (`C83_refuted`); Reset may leave the timer dead
  or panic (`C84_…`).
* Periodic tasks: panics and restarts leave two loops, a stop before the due
  time has no effect (`C65_…`) or crashes (`C82_…`).
* Re-entrant calls: continuations run outside the actor's loop (`C26_refuted`),
  a panic in one ends the process (`C85_refuted`), the 30-second default is not
  applied (`C86_refuted`), the context's error may be replaced by the call's
  (`C25_ctx_refuted`).
* Cron: "*/0" never ends, negative steps take up to 2^63 rounds (`C53_…`),
  stepped ranges that wrap start the step again (`C52_…`), and with a step near 2^63 a
  range matches times outside it (`C52_huge_step_refuted`).
* Messages: large, 8-bit and nested integers and non-UTF-8 strings are not read
  back (`C54_…`); copying a header drops the timestamp (`C56_…`); a rejected
  object wipes the custom data (`C75_…`); a null document makes the next write
  panic (`C76_…`); WithResHeader shares the caller's header (`C77_…`).
* gRPC client: CallWait ignores the concurrency cap (`C57_…`), loses connections
  (`C78_…`) and crashes on a bad option (`C79_…`).
* Reporter: spans reported after Close vanish, a second Close does not wait
  (`C58_…`), dropped spans are never released (`C80_…`).
* Others: version chains skip versions registered out of order (`C59_…`); error
  codes wrapped with %w are not recognised and empty messages count as OK
  (`C61_…`); token ids that are not UTF-8 change (`C62_…`).
