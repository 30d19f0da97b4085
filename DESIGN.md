# Design of the Rocq model of nexo

The model is written in plain Gallina over the Coq standard library only (lists, N, Z, bool, options).
No other library is imported. Sources under `/repo` are read as text; nothing is run.

## Layout

* `theories/Lib*.v`       small libraries (assoc maps, list lemmas, big-endian bytes)
* `theories/*Model.v`     executable model, one definition per source function, each citing its source lines
* `theories/*Spec.v`      small specifications, independent of the model's helpers
* `theories/*Proofs.v`    lemmas
* `theories/Prop*.v`      the property theorems, each `exact lemma`, followed by `Print Assumptions`, with non-vacuity examples

## Modelling conventions

* bytes and strings are `list N` (UTF-8 bytes; UTF-8 validity is an abstract boolean test where it matters).
* u64/u32/usize are `N`, unbounded unless the property is about overflow; the only places where wrap-around is modelled are named in the definitions (`now + visibility_timeout`, `as u16`, `as u32`, JavaScript int32).
* time, fresh ids (UUID v4), CRC32 values and hash-map iteration orders are parameters of operations or Section variables, i.e. universally quantified.
* `&mut self` methods return the new state; `Result`/`Option` are data; panics are explicit error values.
* a mutex-protected section is one atomic step; everything outside a lock is a separate step in the concurrency models.
* BTreeMap = association list kept sorted by key; HashMap = association list whose order is never relied upon; LinkedHashSet/LinkedHashMap = list in insertion order, re-insertion moves to the back.

## Plan per property

* **C01 Request frame round trip** — model: Wire. Method: functions `decode`/`encode_request` on `list N`; round-trip by length arithmetic.
* **C02 Chunking invariance of the TCP frame stream** — model: Wire. Method: `feed` = append chunk, run the decode loop; fold over chunks = run on the concatenation (induction, decode monotone in suffix).
* **C03 Oversized frames are rejected at the header, smaller ones never** — model: Wire. Method: exact characterisation of `decode = Err`.
* **C04 A truncated frame never produces a request** — model: Wire. Method: strict prefix => NeedMore, from the round-trip lemma.
* **C05 Server output is decoded by the SDK to the same events** — model: Wire + Sdk. Method: `encode_outbound` vs SDK `processBuffer`, same chunking lemma.
* **C06 Command arguments survive the wire** — model: Cursor + Commands. Method: writers for every SDK call, parsers for every opcode; round trip.
* **C07 Malformed requests are answered, never mis-parsed** — model: Cursor + Commands. Method: parse is a partial inverse of write (canonical prefix) and prefix-truncation lemma.
* **C08 Every opcode reaches exactly one handler** — model: Dispatch. Method: finite sweep over 256 opcodes lifted with forallb_forall, plus symbolic range lemmas.
* **C09 Structured responses decode to what was sent** — model: Responses. Method: decoders written after the SDK; round trip by induction on lists.
* **C10 Message ids survive the trip to the client and back** — model: Sdk. Method: hex encode/decode of 16 bytes.
* **C11 SDK correlation ids are usable and unique** — model: Sdk. Method: explicit int32 semantics of `&`; refuted at 2^31 (witness) + uniqueness theorem.
* **C12 One response per request, with its own id** — model: Conn. Method: labelled transition system: receive, handler step, respond; invariant on multiset of ids.
* **C13 Store reads the last write** — model: Store. Method: refinement to an abstract last-write map.
* **C14 Expired store values are never returned** — model: Store. Method: corollaries of the refinement, boundary stated exactly.
* **C15 Background clean-up is invisible to readers** — model: Store. Method: refuted at the exact expiry instant (witness), proved for all other instants.
* **C16 Store keys are independent** — model: Store. Method: frame lemma.
* **C17 Store listing is sound and complete** — model: Store. Method: scan soundness proved; pagination completeness refuted (expired entries are filtered after paging).
* **C18 Topic matching follows the MQTT rules** — model: PubSub tree. Method: `matches` spec on level lists; induction on the tree.
* **C19 Publish delivers exactly once to each matching connected client** — model: PubSub manager. Method: refinement: tree+registry ~ set of (client, pattern); delivery = filter of the set.
* **C20 Unsubscribing and disconnecting affect only that client and that pattern** — model: PubSub manager. Method: same refinement; refuted for patterns with an inner '#'.
* **C21 Subscribing delivers the retained messages that match** — model: PubSub tree. Method: retained abstraction: finite map level list -> value.
* **C22 Retained value is the last one published** — model: PubSub tree. Method: same abstraction, step lemmas.
* **C23 Retained messages survive a restart** — model: PubSub persist. Method: flush/load round trip; refuted for values expired while down and for leading-slash topics.
* **C24 Topic names are delivered unchanged** — model: PubSub tree. Method: path rebuild lemma for topics without leading empty level; refuted for '/a'.
* **C25 Messages of one publisher arrive in order** — model: PubSub manager. Method: outbox suffix invariant over histories.
* **C26 A subscriber racing with a retained publish never misses it** — model: PubSub conc. Method: interleaving model with the two lock sections of publish.
* **C27 A disconnected client leaves nothing behind** — model: PubSub conc. Method: refuted by interleaving witness; delivery part proved.
* **C28 SDK dispatch agrees with server matching** — model: Sdk + PubSub. Method: equality of SDK matcher and server matcher; dispatch set theorem.
* **C29 Every message is in exactly one place** — model: Queue. Method: index/registry invariant for all histories + conservation theorem against ghost history.
* **C30 Dispatch order is priority, then arrival** — model: Queue. Method: abstract queue = list of (id, priority) in arrival order; pop = first of max priority.
* **C31 No double delivery while in flight** — model: Queue. Method: trace theorem from invariant on in-flight deadlines.
* **C32 Batches are bounded, duplicate-free and maximal** — model: Queue. Method: take_batch characterisation.
* **C33 Retry accounting and dead-lettering** — model: Queue. Method: attempts = number of deliveries since entry (ghost counter) .
* **C34 Visibility timeout redelivers exactly the overdue messages** — model: Queue. Method: exact characterisation of process_expired.
* **C35 Ack is permanent** — model: Queue. Method: trace theorem: id absent is preserved when ids are fresh.
* **C36 Nack returns the message to the back of its priority** — model: Queue. Method: exact characterisation of nack.
* **C37 Only the current delivery can be settled** — model: Queue. Method: refuted: ack and nack of waiting messages succeed (witness trace).
* **C38 DLQ listing and pagination** — model: Queue DLQ. Method: list lemma: pages partition the reversed list.
* **C39 DLQ move, delete and purge** — model: Queue DLQ. Method: step characterisations.
* **C40 Queue statistics tell the truth** — model: Queue. Method: from invariant.
* **C41 Queues are independent; create is idempotent** — model: QueueMgr. Method: manager as map name -> queue; frame lemmas.
* **C42 Restart restores the queue** — model: QueuePersist. Method: simulation: database rows ~ memory after executing emitted storage ops.
* **C43 A crash loses only a suffix of operations** — model: QueuePersist. Method: channel + writer batch model with crash; prefix invariant.
* **C44 Concurrent requests do not corrupt durable state** — model: QueueConc. Method: refuted by interleaving witness (Delete overtakes Insert).
* **C45 Recovered delivery state** — model: QueuePersist. Method: load characterisation + push of recovered rows satisfies the queue invariant.
* **C46 Restart preserves dispatch order** — model: QueuePersist. Method: refuted by witness (requeued message returns to its old position).
* **C47 A queue is restored under its own name** — model: QueueMgr. Method: file-name round trip; refuted for names ending in .db; proved otherwise.
* **C48 A waiting consumer is never left asleep** — model: Notify. Method: interleaving model of notify/consume loop; invariant: a waiter asleep => nothing ready since its check.
* **C49 Sequence numbers are gapless** — model: Topic. Method: append trace theorem.
* **C50 Reading a topic returns the exact range** — model: Topic + Storage. Method: invariant: log contiguous; read = slice; manager-level read.
* **C51 Eviction never loses data** — model: Topic + Storage. Method: evict characterisation + persisted invariant for in-order appends.
* **C52 A message has at most one owner in a group** — model: Group. Method: invariant: pending keys NoDup, disjoint from redeliver; trace theorem on deliveries.
* **C53 Back-pressure bound** — model: Group. Method: invariant.
* **C54 Delivery attempts are bounded** — model: Group. Method: ghost count of deliveries per seq bounded.
* **C55 The ack floor means 'everything up to here is settled'** — model: Group. Method: invariant relating floor to ghost set of settled seqs.
* **C56 A group loses no message** — model: Group. Method: partition invariant.
* **C57 Only the owner with the current generation can ack** — model: Group. Method: exact characterisation of ack.
* **C58 Leaving or disconnecting releases all of a consumer's messages** — model: Group. Method: exact characterisation of remove_member.
* **C59 Ack timeout redelivers exactly the overdue messages** — model: Group. Method: exact characterisation of check_redelivery for any iteration order.
* **C60 Seek repositions the group and fences old members** — model: Group. Method: exact characterisation of seek + fencing lemma.
* **C61 Groups and topics are independent** — model: StreamMgr. Method: frame lemmas.
* **C62 Log records round trip and torn tails are cut** — model: Storage. Method: byte-level encode/decode, torn tail lemma; CRC as a Section variable.
* **C63 Consumer-group file round trip** — model: Storage. Method: round trip for ids < 65536 bytes; refuted for longer ids (length truncated to 16 bits).
* **C64 Segments partition the log** — model: Storage. Method: append/rotate invariant.
* **C65 Retention removes only old data, never the newest segment** — model: Storage. Method: retention characterisation.
* **C66 Cold read returns the stored range** — model: Storage. Method: cold read = slice of concatenated log.
* **C67 Restart continues the topic where it stopped** — model: Storage + Topic + Group. Method: recovery theorem from segments invariant.
* **C68 A crash never makes a group skip messages** — model: Storage + Group. Method: refuted: saved ack floor ahead of the durable log (witness).
* **C69 A crash never makes numbers repeat** — model: Storage. Method: refuted: torn/empty last segment (witnesses).
* **C70 Concurrent publishes keep the durable log in order** — model: StreamConc. Method: refuted by interleaving witness; proved for serialized sends.
* **C71 A waiting fetch is never left asleep** — model: Notify. Method: same interleaving model.
* **C72 A group can always make progress** — model: StreamMgr. Method: refuted: flag left set by an aborted fetch, holes in storage (witnesses); partial: progress when messages are in memory.
* **C73 A closed connection always releases its consumers** — model: Conn. Method: refuted: error exit skips the clean-up (witness); proved for clean exits.
* **C74 A deleted topic or queue stays deleted** — model: DeleteModel. Method: invariants over all interleavings kept apart (DeleteProofs, DeleteQueueProofs); refuted by interleaving witnesses otherwise.
* **C75 Client-side concurrency limit** — model: Sdk. Method: worker-pool transition system.
* **C76 Every queue request is answered as the reference queue would** — model: Queue. Method: refinement between the model and a three-list reference queue.
* **C77 Retry limit across restarts** — model: QueuePersist. Method: refuted by a crash after the last delivery (witness); partial: each restart adds at most one delivery.
* **C78 A crash falls back to an earlier set of retained messages** — model: PubSub persist. Method: flush task split in three steps + crash; invariant: table represents an earlier moment.
* **C79 A retained publish with an unrepresentable TTL changes nothing** — model: PubSub manager. Method: characterisation of the panic; state unchanged.
* **C80 An acknowledgement stands for a handler that succeeded** — model: SdkLoop. Method: log of observations; multiset invariants over every schedule of workers.
* **C81 Segment files stay within the size limit and are filled up** — model: StreamStore, StreamSys. Method: invariants over files: size or single record; neighbouring files leave no room; refutation after a torn crash.
* **C82 Pushed messages reach a connection in order, each once** — model: Conn, ConnPush. Method: conservation invariant: written, queued, bridged and waiting pushes together are those handed over, in order; progress by explicit schedule.
* **C83 Store requests over a connection are linearizable** — model: Conn, ConnStore, Store. Method: ghost history with prefix closure; invariant linking tasks, replies and written responses to their places in it; own-write corollary; witness for pipelined requests.
* **C84 Every SDK request is settled once, by its own response** — model: SdkConn. Method: log of packets, responses and settlements; invariant: every pending entry was asked and waits since; justification of every settlement; refutation for disconnect().
* **C85 disconnect() of the SDK client is final** — model: SdkConn. Method: dead state is closed under every callback; refutation while the reconnect loop sleeps.
* **C86 The SDK application hears exactly what the server wrote** — model: SdkConn, Wire. Method: client loop in step with the chunked reader of Wire; refutation for an empty published message.
* **C87 The SDK client reconnects after every loss** — model: SdkConn. Method: invariant: the loop runs exactly while the client is down.
* **C88 A confirmed SDK subscription stays and comes back** — model: SdkSub. Method: phase invariant over every continuation of the subscribe call; broker side through the history semantics of holds.
* **C89 A confirmed SDK unsubscription is final** — model: SdkSub. Method: invariant: a handler removed stays removed; UNSUB executed after every SUB of the connection.
* **C90 An SDK stream subscription keeps receiving** — model: SdkStreamModel, SdkStreamSys. Method: invariants of the loop over its log; the client joined to the stream server model, membership invariant; refutation by an invariant of the shut-out state over every continuation.
* **C91 Stopping an SDK stream subscription** — model: SdkStreamModel, SdkStreamSys. Method: the same invariants; a measure for the callbacks still to end; refutation by a computed history.
* **C92 A queue subscription of the SDK goes on until stopped, and stop() ends it** — model: SdkQueueModel. Method: invariants per subscription over the handle's log; a decreasing measure bounds the own steps to the next CONSUME or the return of stop(); refutation by a computed history.
* **C93 A queue handle of the SDK has one subscription at a time** — model: SdkQueueModel. Method: invariant: at most one call is unsettled or running when calls do not overlap; refutation by a computed history.
* **C94 No pushed message is lost between queue and callback** — model: SdkQueueSysModel. Method: clients (SdkQueueModel), queue (QueueModel) and a lossy network composed; invariants on the origin of every ack and nack, with C29's conservation; refutations by computed histories.
* **C95 A message handled in time is handled once** — model: SdkQueueSysModel. Method: a message is a token: waiting, dead, in an answer, queued, running, nacked or handled; their sum never exceeds the number of pushes of its id.
* **C96 A stream group passes over no record** — model: SdkStreamNetModel. Method: every server log has, for each group, a history whose settled numbers have a reason in the log; acknowledgements are traced back through the network to the callback (C90).
* **C97 A stream record is handled again only after it was taken back** — model: SdkStreamNetModel. Method: starts are bounded by what answers brought, answers by what the server gave out; giving out by the status of the number in the group history.
* **C98 The pub/sub page of the dashboard shows what is there** — model: PubSubDashModel. Method: the listing walks the topic tree: rows = dump of the tree, which the tree invariant ties to subscriptions and retained messages of the history.
* **C99 The stream pages of the dashboard show what is there** — model: StreamDashModel. Method: the read theorems of C50 plus the invariant that eviction leaves the newest ones in memory; groups by C55 and C56.
* **C100 Values pass between SDK clients unchanged** — model: ValueModel. Method: the lossy decoder inverts the encoder on scalar values; strings are sequences of 16-bit units.
* **C101 The dashboard shows payloads as what they are** — model: ValueModel. Method: the same decoder; hexadecimal is read back.
* **C102 Options given in the SDK are the settings the server uses** — model: OptionsModel, JsonModel. Method: round trip of the JSON codec under UTF-8, then field by field; decimal numerals by induction.
* **C103 Queues and streams keep the settings they were created with** — model: OptionsModel. Method: pretty-printed files are read back, whatever the defaults; a file cut at any byte is not read at all.
* **C104 Environment variables set what they say** — model: OptionsModel. Method: numerals as an independent relation, equivalent to the parser.
* **C105 What one application stores, every application reads** — model: SdkStoreModel, ConnStore, OptionsModel, JsonModel. Method: the order of C83, the options of C102 and the values of C100 composed.
* **C106 What one application publishes, the handlers of subscribers get** — model: SdkPublishModel, SdkSubModel, PubSubModel, OptionsModel, JsonModel. Method: the deliveries of C19, C22 and C88 with the options of C102 and the values of C100 composed.
* **C107 What applications push is what the consumers' callbacks get** — model: SdkMsgModel, SdkQueueSysModel, OptionsModel, JsonModel. Method: C94 over the SDK's values, with the options of C102 and the values of C100.
* **C108 What applications publish to a stream is what the groups' callbacks get** — model: SdkMsgModel, SdkStreamNetModel, JsonModel. Method: C96 over the SDK's values of C100.
* **C109 The queue page of the dashboard finds what is searched for** — model: QueueDashModel, QueueModel, ValueModel, JsonModel. Method: the listings of C38 and C40 with substring search over the UTF-8 and JSON encodings.
* **C110 A message on disk reaches a callback whatever crashes** — model: SdkQueueCrashModel, SdkQueueSysModel, QueuePersistModel. Method: the system of C94 with the storage of C43; invariant: among the pending storage operations, a message once written stays written until a removal was executed.
* **C111 The store page of the dashboard shows what is stored** — model: StoreDashModel, StoreModel, ValueModel. Method: the scan of the store with the specification of C13; search over UTF-8 by self-synchronisation of the encoding.
* **C112 A queue or stream has the settings of its creation for all its life** — model: CfgLifeModel, OptionsModel. Method: simulation by a machine whose creations and deletions are atomic; for streams with a third state, without settings.
* **C113 Failing consumers do not keep a queue busy for ever; a worker that acks empties it** — model: QueueModel, QueueSpec. Method: a sum over the listings (deliveries left to each message) that no request raises except pushes and moves and that each delivery lowers by one; induction over rounds for the worker.

## What is modelled, file by file

| Source | Model | Simplifications |
|---|---|---|
| `src/transport/tcp/protocol/frame.rs`, `codec.rs` | WireModel | none for the byte format; `BytesMut` is a list |
| `src/transport/tcp/protocol/cursor.rs`, `dispatcher.rs`, the `parse` functions of the four `tcp.rs` | CmdModel, Utf8 | serde_json acceptance is a parameter (`json_ok`), made concrete in OptionsModel |
| response payloads (`tcp.rs` of queue, stream, pub/sub; `types.rs`) | RespModel | JSON text of dashboards not modelled |
| `src/transport/tcp/connection.rs` | ConnModel, ConnStore, ConnRelease | each statement that touches a channel is a step; a task may be put down anywhere, not only at an await; the two locks taken by a pub/sub disconnect are one step in ConnRelease |
| `src/brokers/store` | StoreModel | DashMap shards: each map operation is atomic; a sweep may also visit single entries (`OSweepKey`) |
| `src/brokers/queue/domain/queue.rs`, `dlq.rs`, per-queue part of `manager.rs` | QueueModel, QueueMgrModel, QueueWake, WakeModel | ids are numbers given as fresh; the clock is an operation argument; `now + timeout` wraps at 2^64 as in a release build |
| `src/brokers/queue/domain/persistence.rs`, warm start in `manager.rs` | QueuePersistModel, DeleteModel | SQLite is a table with primary key and transactions; I/O errors are not modelled |
| `src/brokers/pub-sub` | PubSubModel (sequential), PubSubConcModel (lock sections), PubSubPersistModel | client ids are numbers |
| `src/brokers/stream/http.rs`, `get_snapshot` | StreamDashModel | one topic; payloads and time stamps before they become JSON text; a read is one step |
| `src/brokers/queue/http.rs` get_queue_messages | QueueDashModel | rows before they become JSON text; the state word is compared in ASCII lower case |
| `src/brokers/store/http.rs` get_store | StoreDashModel | rows before they become JSON text; times as numbers; the system clock is read once per page instead of once per row; the map does not change during one request |
| settings files of one queue and one stream over creations, deletions, crashes and starts (`queue/manager.rs`, `stream/manager.rs`) | CfgLifeModel | requests for one name one at a time; no loss of power; the data directory is not moved |
| `sdk/ts/src/codec.ts` any, decodeAny; `src/transport/http/payload.rs` | ValueModel | JSON.stringify and JSON.parse are parameters, made concrete in JsonModel; serde_json's reading for the dashboard is a parameter; Buffer.write and toString('utf8') are modelled after the runtime's documentation |
| JSON.stringify, JSON.parse, the grammar serde_json reads | JsonModel | after ECMA-262 and RFC 8259; a number is its text; values after toJSON; BigInt and cycles (which throw) are left out; no limit on nesting |
| `*/options.rs`, `*/config.rs`, `src/config.rs` get_env, `QueueConfig`, `TopicConfig` and their files, options in `sdk/ts/src/brokers/*.ts` | OptionsModel | options are read into a value and then into the struct (serde does both at once); which variable goes to which setting is not modelled |
| `sdk/ts/src/brokers/store.ts`, composed with the connection, the options and the values | SdkStoreModel | |
| `src/brokers/pub-sub` `scan_topics`, `http.rs`, `snapshot.rs` | PubSubDashModel | tree and registry are read at one moment; names and payloads before they become JSON text |
| `src/brokers/stream/domain/topic.rs`, `group.rs` | StreamTopicModel, StreamGroupModel | HashMap iteration orders are parameters; `max_deliveries` etc. arbitrary |
| `src/brokers/stream/domain/persistence.rs` | StreamStoreModel, Crc32 | files are byte lists; a crash keeps what the operating system was given, or a prefix where stated; any checksum function below 2^32 |
| `src/brokers/stream/manager.rs` | StreamSysModel, StreamWake, WakeModel, DeleteModel | one topic; each lock section or storage command is a step |
| `sdk/ts/src/codec.ts` and the frame format in `connection.ts` | WireModel, RespModel, CmdModel | JavaScript numbers where they matter (int32 `&`) |
| `sdk/ts/src/connection.ts` (requests, timeouts, loss, reconnect, disconnect) | SdkConnModel | each JavaScript callback is a step; whether JSON.parse accepts a text is a parameter; starts after a successful first connect() |
| `sdk/ts/src/utils/concurrent.ts`, loops in `brokers/queue.ts`, `brokers/stream.ts` | SdkLoopModel | integer concurrency; handlers are black boxes that succeed or throw |
| `sdk/ts/src/brokers/pubsub.ts` | SdkDispatch, SdkSubModel | SdkSubModel: calls, responses, continuations, losses and reconnects as steps; requests of one connection are executed by the broker in any order, as the server does; a request fails by timeout, loss or error response (XFail), whether or not the broker executes it; handlers that call subscribe while a push is being dispatched are not modelled |
| `sdk/ts/src/brokers/pubsub.ts` publish and pushes, composed with the broker, the options and the values | SdkPublishModel | |
| `sdk/ts/src/brokers/queue.ts` push and peekDLQ, `stream.ts` publish, and the data of answers, composed with the queue, the stream, the options and the values | SdkMsgModel | |
| `sdk/ts/src/brokers/queue.ts` (subscribe, stop) | SdkQueueModel | one handle; any number of subscribe and stop calls; equal options; code up to the next await is one step; sleeping times are not modelled |
| the same with `src/brokers/queue/` behind it | SdkQueueSysModel | any number of clients, one queue; requests are executed in any order, answers and requests can be lost; decoding is a parameter; the queue is not deleted; the server restarts only in SdkQueueCrashModel |
| the same with storage, crashes and restarts | SdkQueueCrashModel | as SdkQueueSysModel and QueuePersistModel; storage operations of a request enter the channel before the next request runs (otherwise C44) |
| `sdk/ts/src/brokers/stream.ts` subscriptions with `src/brokers/stream/` behind them | SdkStreamNetModel | any number of subscriptions and groups, one topic; requests are executed in any order and survive restarts, answers and requests can be lost; the server restarts only when everything is written; whether a batch can be decoded is a choice of the run |
| `sdk/ts/src/brokers/stream.ts` (StreamSubscription) | SdkStreamModel, SdkStreamSys | answers and the code up to the next await are one step; the back-off time is not modelled (it may end at any moment); the first connect has succeeded; one stop() at a time is told apart; SdkStreamSys runs it against StreamSysModel, requests of a connection executed in any order |

Not modelled: `main.rs`, `lib.rs`, the names of environment variables, the HTTP dashboard
(`transport/http`, `*/http.rs`, `snapshot.rs`) except the listings of store, queue, pub/sub and streams, logging, tokio's scheduler beyond the
interleaving of sections, memory exhaustion (`Vec::with_capacity` of an announced length can
abort the process), TLS and the socket itself, I/O errors of SQLite and the file system.

Independent specifications, written without the model's functions: TopicSpec (topic levels and
MQTT matching), PubSubSpec (meaning of a request history), QueueSpec (three lists), StreamGroupSpec
(fate of a message from requests and answers), ConnStoreSpec (sequential history of a connection),
PubSubDashSpec (counts, names, order of the pub/sub page), SdkConnSpec (what a settlement of an SDK request must be preceded by), SdkSubSpec (settled calls, executed requests), SdkQueueSpec (what was received and done, own steps), SdkQueueSysSpec (callbacks counted over all clients, deliveries in time), SdkStreamSpec and SdkStreamSysSpec (identity in use, batch in hand, calm losses), SdkStreamNetSpec (what was published, handled, given out and taken back, read off the common log),
Utf8 (scalar values), `json_number` in JsonProofs (RFC 8259), `decimal`, `given`, `wrong` in OptionsProofs, `means` in PropOptions, `spec_get`/`spec_last` in StoreProofs.

## Disagreements between the code and the natural statement

Each is a theorem ending in `_refuted` with a concrete witness; the property keeps its full
statement and is marked partial.

* C09: an empty payload inside a batch makes the SDK decoder throw; the whole batch is lost.
* C10: a message id text of the wrong length is not refused by the SDK.
* C11: the SDK's request id becomes negative at request 2^31 and the frame writer throws.
* C12, C14: a SET with an unrepresentable TTL panics; the client never gets a response.
* C15: at the exact instant of expiry a sweep changes a GET.
* C17: a page of the listing may be short though live entries follow.
* C20: unsubscribing `a/#/b` ends the subscription `a/#`.
* C23, C24, C28: a retained topic with a leading slash is renamed on delivery; `/a` and `a` together stop all saving; a message that expired while the server was down comes back and never expires.
* C25, C83: requests pipelined on one connection run in any order.
* C27: a subscribe overtaken by the disconnect of its connection leaves an entry for good.
* C31: a huge visibility timeout wraps and expires at once.
* C33: with `max_retries = 0` a nack of a never delivered message dead-letters it.
* C37: an ack after the timeout still removes the message.
* C44: storage operations are sent after the lock is released and may be reordered: an acknowledged message comes back, a dead letter disappears.
* C46: a requeued message returns to its old place after a restart.
* C47: queue names ending in `.db` are restored under another name.
* C50: a read that begins on disk stops at what the files show.
* C54: STREAM_MAX_DELIVERIES=0 does not mean without limit: nothing is ever given out and everything counts as settled (C54_zero). The other group theorems assume at least one delivery.
* C58: messages released by a leaving consumer are queued in hash-map order.
* C63: group ids of 65536 bytes or more corrupt the groups file.
* C68: group floors are saved while the log is still buffered: after a crash new messages are skipped.
* C69: numbers are issued again after a crash with an empty newest file; records behind a torn one are lost at the next restart.
* C70: the hand-over to storage is outside the topic lock: the file may be out of order and the mark may cover unwritten messages.
* C72: a disk read cut off by its connection blocks the group's disk reads.
* C73: a connection ended by an error is never cleaned up; a join under way at the end joins afterwards.
* C74: several races of delete with publish, create and group save.
* C75: a failing ack makes the next batch exceed the limit and drops the rest of a batch.
* C77: every restart can add one delivery to the limit; with `maxRetries` 1 a message can be delivered any number of times without ever becoming a dead letter (`C77_any_number_refuted`).
* C84, C85: `disconnect()` leaves open requests unsettled for ever; while the client waits to reconnect it does not stop the reconnect.
* C86: an empty published message makes every SDK subscriber's receive callback throw.
* C88: overlapping unsubscribe calls end a subscription made between them.
* C89: the restore of a reconnect may undo a confirmed unsubscribe at the broker; a subscribe that timed out but was executed cannot be undone by unsubscribe.
* C78: a retained message published to a topic beginning with "/" comes back under the name without the slash, so subscribers of the original name no longer see it.
* C81: after a torn crash a file can grow beyond the limit.
* C90: a stream subscription whose connection is lost and comes back while its callbacks run never receives another message: its FETCHes, under a consumer id the server has dropped, are answered at once with no messages, because a waiting fetch reports NOT_MEMBER as an empty answer (manager.rs:235-237); it asks in a tight loop.
* C91: a stop() while a re-join is under way sends no LEAVE; the join completes, a FETCH is still sent, and the consumer stays a member holding messages nobody handles, after stop() has returned.
* C92: an acknowledgement that cannot be written abandons the batch: stop() returns while callbacks of it run.
* C93: two overlapping subscribe() calls on a queue handle both start a loop; the stop() of one clears the flag for a third.
* C94: a message can be dead-lettered without any callback: handing it back after stop() counts as an attempt.
* C94: one payload that cannot be decoded (an empty one, pushed by another client library) makes the SDK drop the whole batch; its neighbours time out until they are dead-lettered.
* C95: after a timeout two callbacks can run for one message at once and both end well (at-least-once delivery).
* C96: one payload that cannot be decoded makes the SDK drop its whole batch; after max_deliveries rounds the group moves past all of it, and no callback has ever seen the neighbours.
* C96: floors saved ahead of the log make the group, after a crash, pass over records published later (the C68 defect, seen from the SDK).
* C97: stop() sends LEAVE before the running callbacks have ended; their records go to another consumer at once, which handles them a second time, and the late acknowledgements are refused.
* C98: the page drops leading slashes, so /a and a are two rows of one name and a subscription to / has no row; a retained topic with a level + looks like a pattern; any # or + in a literal name makes it a wildcard.
* C99: the first page of a topic is read from `last_seq - 49` on; if that number is on disk (always after a restart that found a short last file, or when the limit exceeds the soft limit of memory) the read stops where the files end, and the newest records are missing from the page that is meant to show them.
* C100: a string with a lone surrogate is written with U+FFFD in its place; store keys, topics and values that differ only there become the same.
* C101: a Buffer is shown as the string 0x…, which a string can be, too.
* C100: NaN and the infinities arrive as null.
* C102: Infinity and NaN as an option are null and so the default: `waitMs: Infinity` does not wait, `ttl: Infinity` is one hour. A misspelt option is ignored, except by push.
* C106: docs/guide/pubsub.md:67 says that publishing an empty payload with retain: true clears the retained message. The SDK puts a type byte before every value, so no value has an empty payload: `''`, an empty Buffer, null and undefined are retained like any other value. Only a client that speaks the protocol itself can clear.
* C109: the search of the queue page looks at the raw payload as text: a Buffer shown as 0xcafe is not found by cafe, nor a JSON string x"y by x"y (its JSON text is x\"y); for dead letters the search is ignored.
* C111: the total of the store page counts keys the search does not find and keys that have expired but are not swept yet; a sweep between two page requests moves keys to earlier pages, so a live key can be on none of the pages.
* C112: a crash between making the directory of a stream and writing its settings leaves a stream with the defaults of whichever server runs; creating it again is answered and changes nothing.
* C103: a partly written settings file is silently replaced by the defaults; a moved stream directory is written in the new place and recovered from the old one.
* C104: a malformed variable of a broker is silently the default; of the server itself, it stops the start.

Observed while reading, outside the listed properties: `limit = 0` or `max = 0` waits until the
deadline; a stale consumer polling a group that is at its pending limit gets an empty answer;
queue names with `/` are silently not durable; the SDK cannot clear a retained message (its
encoding is never empty); age retention with
non-monotone file times can leave holes; a crash between creating a topic directory and its
configuration file gives the topic default settings.

## Trusted base

* The kernel of Coq 8.16.1 (the `vm_compute` machine included: it is used in examples and witnesses).
* `Print Assumptions` stands under every theorem named in MANIFEST.json and answers "Closed under the
  global context" for each of them: no theorem depends on an axiom.
* Loading `lia` and the list library brings in `Coq.ssr.ssrunder`, whose module type `Under_rel`
  contains seven parameters (`Under_rel`, `Under_rel_from_rel`, `Under_relE`, `Over_rel`, `over_rel`,
  `over_rel_done`, `under_rel_done`). They are in the standard library, are listed by `coqchk`, and no
  theorem here uses them.
* No axioms, admitted proofs, functors, module types or plugins of our own; no kernel check is
  switched off.
* The correspondence between the model and the Rust and TypeScript sources is by reading; each
  definition cites the lines it models and says where it simplifies. `seeded/LOG.jsonl` records what
  happens to the theorems when the model is changed as a realistic bug would change the code.
