{"id": "C01", "title": "Request frame round trip", "statement": "Encoding a request (opcode, correlation id, payload) as a frame and decoding it, followed by arbitrary further bytes, yields exactly that request and leaves exactly the further bytes unread, whenever the payload is within the configured maximum.", "quantifier": "every opcode byte, every id < 2^32, every payload up to the maximum, every trailing byte string", "why_tests_cant": "payload lengths and trailing bytes are unbounded; off-by-one errors in length handling only show at sizes nobody samples", "anchors": ["src/transport/tcp/protocol/codec.rs decode", "src/transport/tcp/protocol/frame.rs FrameHeader", "sdk/ts/src/codec.ts FrameWriter.finish"]}
{"id": "C02", "title": "Chunking invariance of the TCP frame stream", "statement": "However the network splits a byte stream into reads, the server sees the same sequence of requests, the same protocol error (if any) and the same leftover bytes as if the stream arrived in one piece.", "quantifier": "every byte string and every partition of it into chunks", "why_tests_cant": "there are exponentially many partitions, TCP chooses them", "anchors": ["src/transport/tcp/protocol/codec.rs NexoCodec::decode", "src/transport/tcp/connection.rs run_socket"]}
{"id": "C03", "title": "Oversized frames are rejected at the header, smaller ones never", "statement": "A frame that declares more than the configured maximum is rejected as soon as its 10 header bytes are present, without buffering its body; a frame at or below the maximum is never rejected for size; no request after an oversized one is delivered.", "quantifier": "every header, every declared length, every suffix", "why_tests_cant": "the bound must hold at every length and stream position", "anchors": ["src/transport/tcp/protocol/codec.rs NexoCodec::decode", "src/config.rs max_payload_size"]}
{"id": "C04", "title": "A truncated frame never produces a request", "statement": "If only a strict prefix of a frame has arrived, no request is produced and nothing is consumed; the request appears exactly when the last byte arrives.", "quantifier": "every frame and every strict prefix", "why_tests_cant": "all cut points at all sizes", "anchors": ["src/transport/tcp/protocol/codec.rs NexoCodec::decode"]}
{"id": "C05", "title": "Server output is decoded by the SDK to the same events", "statement": "For any sequence of responses and pushes the server writes, in any chunking, the SDK's frame loop recovers exactly that sequence: kind, status, correlation id and payload, in order.", "quantifier": "every finite sequence of responses/pushes with ids < 2^32 and payloads < 2^32, every chunking", "why_tests_cant": "unbounded sequences, sizes and chunkings", "anchors": ["src/transport/tcp/protocol/codec.rs encode", "sdk/ts/src/connection.ts processBuffer/handleFrame"]}
{"id": "C06", "title": "Command arguments survive the wire", "statement": "For every command of every broker, parsing the bytes the SDK writes for its arguments yields exactly these arguments (names, ids, numbers, JSON text, payload bytes).", "quantifier": "every opcode and every argument tuple with strings shorter than 2^32 bytes and valid UTF-8", "why_tests_cant": "argument contents are unbounded", "anchors": ["src/transport/tcp/protocol/cursor.rs PayloadCursor", "src/brokers/queue/tcp.rs parse", "src/brokers/stream/tcp.rs parse", "src/brokers/pub-sub/tcp.rs parse", "src/brokers/store/tcp.rs parse", "sdk/ts/src/codec.ts FrameWriter"]}
{"id": "C07", "title": "Malformed requests are answered, never mis-parsed", "statement": "Every request payload whatsoever either parses to a command whose canonical encoding is a prefix of that payload, or is answered with an error; truncating a well-formed command inside its fixed-layout part is always an error.", "quantifier": "every opcode and every byte string", "why_tests_cant": "the input space is all byte strings", "anchors": ["src/transport/tcp/protocol/cursor.rs", "src/brokers/queue/tcp.rs parse", "src/brokers/stream/tcp.rs parse", "src/brokers/pub-sub/tcp.rs parse", "src/brokers/store/tcp.rs parse"]}
{"id": "C08", "title": "Every opcode reaches exactly one handler", "statement": "Each opcode byte is either the echo opcode, belongs to exactly one broker, or is answered with an unknown-opcode error; the brokers' opcode ranges never overlap and every opcode the SDK emits is inside its broker's range.", "quantifier": "all 256 opcodes", "why_tests_cant": "a table of overlapping ranges has no local unit test", "anchors": ["src/transport/tcp/dispatcher.rs dispatch", "*/tcp.rs OPCODE_MIN/OPCODE_MAX"]}
{"id": "C09", "title": "Structured responses decode to what was sent", "statement": "The consume, DLQ-peek, publish, fetch, join, boolean and count responses, decoded by the SDK's readers, give back exactly the messages (ids, payload bytes, attempts, reasons, sequence numbers, timestamps, generation, ack floor) the server put in, consuming the whole payload.", "quantifier": "every list of messages with fields in wire range", "why_tests_cant": "lists and payloads are unbounded", "anchors": ["src/brokers/queue/tcp.rs to_wire", "src/brokers/stream/tcp.rs to_wire", "sdk/ts/src/brokers/queue.ts", "sdk/ts/src/brokers/stream.ts"]}
{"id": "C10", "title": "Message ids survive the trip to the client and back", "statement": "The 16-byte message id the server sends, rendered as hex by the SDK and sent back in an ack/nack/DLQ call, is the same 16 bytes; distinct ids have distinct renderings; dashes are ignored and non-hex text is refused.", "quantifier": "every 16-byte id and every string", "why_tests_cant": "2^128 ids", "anchors": ["sdk/ts/src/codec.ts Cursor.readUUID/FrameWriter.uuid", "src/transport/tcp/protocol/cursor.rs read_uuid_bytes"]}
{"id": "C11", "title": "SDK correlation ids are usable and unique", "statement": "Every request the SDK sends carries an id that fits the 4-byte header field, and no two requests among any 2^31-1 consecutive ones share an id.", "quantifier": "every number of requests sent on one client", "why_tests_cant": "the failure needs 2^31 requests", "anchors": ["sdk/ts/src/connection.ts send/nextId"]}
{"id": "C12", "title": "One response per request, with its own id", "statement": "Whatever order the concurrently running handlers finish in, while the connection stays open the client gets exactly one response for each request it sent and the response carries that request's id and that request's result; nothing is answered twice and nothing unsent is answered.", "quantifier": "every request sequence and every scheduling of handlers", "why_tests_cant": "schedules are unbounded", "anchors": ["src/transport/tcp/connection.rs handle_connection", "src/transport/tcp/dispatcher.rs"]}
{"id": "C13", "title": "Store reads the last write", "statement": "GET returns the value of the most recent SET of that key that was not followed by a DEL and has not expired, otherwise nothing, for any history of sets, gets, deletes and background clean-ups with a non-decreasing clock.", "quantifier": "every operation history, key, value, TTL and clock", "why_tests_cant": "histories are unbounded", "anchors": ["src/brokers/store/domain/map.rs", "src/brokers/store/manager.rs", "src/brokers/store/tcp.rs handle"]}
{"id": "C14", "title": "Expired store values are never returned", "statement": "A value set with TTL t at time T is returned by every GET no later than T+t (if not overwritten or deleted) and by no GET after T+t; lazily dropping it never affects a newer value of the key.", "quantifier": "every TTL, time and history", "why_tests_cant": "time boundaries are infinite in number", "anchors": ["src/brokers/store/domain/map.rs get"]}
{"id": "C15", "title": "Background clean-up is invisible to readers", "statement": "Running the expiry sweeper at any moments changes the result of no GET.", "quantifier": "every history with clean-ups inserted anywhere", "why_tests_cant": "schedules of the sweeper are unbounded", "anchors": ["src/brokers/store/domain/map.rs cleanup"]}
{"id": "C16", "title": "Store keys are independent", "statement": "An operation on one key never changes what is later read from another key.", "quantifier": "all pairs of keys and all histories", "why_tests_cant": "histories are unbounded", "anchors": ["src/brokers/store/domain/map.rs"]}
{"id": "C17", "title": "Store listing is sound and complete", "statement": "Listing the store returns only live, filter-matching entries with their current value, each key at most once, at most `limit` of them; paging through all offsets shows every live matching entry; a page is short only if nothing live is left beyond it.", "quantifier": "every store content, filter, offset, limit and iteration order", "why_tests_cant": "contents and orders are unbounded", "anchors": ["src/brokers/store/manager.rs scan"]}
{"id": "C18", "title": "Topic matching follows the MQTT rules", "statement": "A published topic reaches a subscription pattern exactly when they match level by level, '+' standing for exactly one level and a final '#' for zero or more remaining levels.", "quantifier": "every topic, every MQTT pattern ('#' only as the last level; other patterns are covered by a separate theorem), every set of other subscriptions", "why_tests_cant": "the tree shape depends on the whole subscription history", "anchors": ["src/brokers/pub-sub/domain/radix_tree.rs insert_subscriber/match_subscribers"]}
{"id": "C19", "title": "Publish delivers exactly once to each matching connected client", "statement": "A publish queues exactly one copy of the message to every connected client having at least one matching subscription, none to anybody else, and reports the number of clients reached, for any history of connects, disconnects, subscribes, unsubscribes and publishes.", "quantifier": "every history", "why_tests_cant": "the tree and the client registry must agree after every history", "anchors": ["src/brokers/pub-sub/manager.rs publish", "src/brokers/pub-sub/domain/radix_tree.rs"]}
{"id": "C20", "title": "Unsubscribing and disconnecting affect only that client and that pattern", "statement": "After unsubscribing a pattern the client no longer receives through it, keeps all its other subscriptions, and no other client's deliveries change; disconnecting removes exactly that client's subscriptions; pruning tree nodes loses nothing.", "quantifier": "every history, client and pattern", "why_tests_cant": "node pruning bugs depend on the tree shape", "anchors": ["src/brokers/pub-sub/domain/radix_tree.rs remove_subscriber", "src/brokers/pub-sub/manager.rs unsubscribe/disconnect"]}
{"id": "C21", "title": "Subscribing delivers the retained messages that match", "statement": "On subscribe the client immediately receives, once each, the latest retained, unexpired value of every topic matching the pattern, and nothing else.", "quantifier": "every history of retained publishes and every pattern", "why_tests_cant": "histories and trees are unbounded", "anchors": ["src/brokers/pub-sub/domain/radix_tree.rs collect_retained_for_pattern", "src/brokers/pub-sub/manager.rs subscribe"]}
{"id": "C22", "title": "Retained value is the last one published", "statement": "The retained value of a topic is that of the last retained publish to it, with its own TTL; an empty retained publish removes it; other topics are untouched; expiry clean-up removes only expired values.", "quantifier": "every history of publishes, clean-ups and clock readings", "why_tests_cant": "histories are unbounded", "anchors": ["src/brokers/pub-sub/domain/radix_tree.rs set_retained/cleanup_expired_retained", "src/brokers/pub-sub/domain/retained.rs"]}
{"id": "C23", "title": "Retained messages survive a restart", "statement": "Saving the retained messages and loading them into a fresh server gives every later subscriber exactly the unexpired retained messages as before, and messages that expired while the server was down are gone.", "quantifier": "every retained store content and every down time", "why_tests_cant": "contents, topics and down times are unbounded", "anchors": ["src/brokers/pub-sub/domain/persistence.rs", "src/brokers/pub-sub/domain/retained.rs from_persisted", "src/brokers/pub-sub/manager.rs new"]}
{"id": "C24", "title": "Topic names are delivered unchanged", "statement": "The topic shown to a subscriber of a retained message, and the topic under which it is persisted, is the very string it was published under.", "quantifier": "every topic string", "why_tests_cant": "unusual level structures (empty levels) are not sampled", "anchors": ["src/brokers/pub-sub/domain/radix_tree.rs collect_retained_for_pattern/collect_all_retained"]}
{"id": "C25", "title": "Messages of one publisher arrive in order", "statement": "Two messages published one after the other to topics a client is subscribed to are queued to this client in publication order, with nothing reordered by other activity in between.", "quantifier": "every history", "why_tests_cant": "interleavings are unbounded", "anchors": ["src/brokers/pub-sub/manager.rs publish"]}
{"id": "C26", "title": "A subscriber racing with a retained publish never misses it", "statement": "If a client's subscribe runs concurrently with a retained publish to a matching topic, the client gets the message at least once, in every interleaving of their atomic sections.", "quantifier": "every interleaving of one subscribe with one retained publish and any other operations", "why_tests_cant": "the race window is a few instructions", "anchors": ["src/brokers/pub-sub/manager.rs publish/subscribe"]}
{"id": "C27", "title": "A disconnected client leaves nothing behind", "statement": "Once a client is disconnected, no later publish is delivered to it, and its subscriptions are gone, even if a subscribe request of that client was still running.", "quantifier": "every interleaving of subscribe and disconnect", "why_tests_cant": "the race window is a few instructions", "anchors": ["src/brokers/pub-sub/manager.rs subscribe/disconnect"]}
{"id": "C28", "title": "SDK dispatch agrees with server matching", "statement": "For every push the server sends because of one of the client's subscriptions, the SDK calls exactly the handlers whose pattern matches the topic.", "quantifier": "every set of subscribed patterns and every topic", "why_tests_cant": "pattern/topic pairs are unbounded", "anchors": ["sdk/ts/src/brokers/pubsub.ts dispatch/matchesParts", "src/brokers/pub-sub/domain/radix_tree.rs match_subscribers"]}
{"id": "C29", "title": "Every message is in exactly one place", "statement": "After any history, each pushed message is exactly one of: waiting, in flight, in the dead-letter queue, or removed (acked / deleted / purged); none is lost or duplicated, and payload and priority never change.", "quantifier": "every history of push, consume, ack, nack, timeouts and DLQ operations", "why_tests_cant": "the indexes must stay consistent under every history", "anchors": ["src/brokers/queue/domain/queue.rs", "src/brokers/queue/domain/dlq.rs", "src/brokers/queue/manager.rs"]}
{"id": "C30", "title": "Dispatch order is priority, then arrival", "statement": "A consumer always gets the waiting message of highest priority, and among these the one that has been waiting longest; priorities are never inverted.", "quantifier": "every history and every priority", "why_tests_cant": "histories are unbounded", "anchors": ["src/brokers/queue/domain/queue.rs pop_single/push"]}
{"id": "C31", "title": "No double delivery while in flight", "statement": "Between a delivery of a message and the expiry of its visibility timeout (or its nack), no other consume returns that message.", "quantifier": "every history and every time", "why_tests_cant": "histories and clocks are unbounded", "anchors": ["src/brokers/queue/domain/queue.rs pop_single/process_expired"]}
{"id": "C32", "title": "Batches are bounded, duplicate-free and maximal", "statement": "A consume of batch size n returns at most n distinct messages, in dispatch order, and fewer than n only if no waiting message is left.", "quantifier": "every state and n", "why_tests_cant": "all sizes", "anchors": ["src/brokers/queue/domain/queue.rs take_batch"]}
{"id": "C33", "title": "Retry accounting and dead-lettering", "statement": "A message is delivered at most max(1, max_retries) times between entering the queue and leaving it; it goes to the DLQ exactly at the first nack or timeout after that many deliveries, with the attempt count and the reason, and never earlier.", "quantifier": "every history and every max_retries", "why_tests_cant": "histories are unbounded", "anchors": ["src/brokers/queue/domain/queue.rs nack/process_expired"]}
{"id": "C34", "title": "Visibility timeout redelivers exactly the overdue messages", "statement": "When the timeout task runs at time t, exactly the in-flight messages whose deadline is <= t become waiting again or are dead-lettered; all others are untouched.", "quantifier": "every state and time", "why_tests_cant": "states are unbounded", "anchors": ["src/brokers/queue/domain/queue.rs process_expired", "src/brokers/queue/manager.rs spawn_timeout_task"]}
{"id": "C35", "title": "Ack is permanent", "statement": "Once ack returns success the message is never delivered again, is not in the DLQ and is not counted; acking it again fails.", "quantifier": "every history following the ack", "why_tests_cant": "histories are unbounded", "anchors": ["src/brokers/queue/domain/queue.rs ack"]}
{"id": "C36", "title": "Nack returns the message to the back of its priority", "statement": "A nack below the retry limit makes the message immediately available behind all waiting messages of its priority and changes no other message; at the limit it moves it to the DLQ with the given reason.", "quantifier": "every state, id and reason", "why_tests_cant": "states are unbounded", "anchors": ["src/brokers/queue/domain/queue.rs nack"]}
{"id": "C37", "title": "Only the current delivery can be settled", "statement": "Ack and nack succeed only for a message that is currently in flight (delivered and not yet timed out).", "quantifier": "every history", "why_tests_cant": "requires stale acknowledgements after timeouts", "anchors": ["src/brokers/queue/domain/queue.rs ack/nack"]}
{"id": "C38", "title": "DLQ listing and pagination", "statement": "Peeking lists dead letters newest first with the true total; walking through pages of any size shows every dead letter exactly once.", "quantifier": "every DLQ content, limit and offset", "why_tests_cant": "contents and page sizes are unbounded", "anchors": ["src/brokers/queue/domain/dlq.rs peek"]}
{"id": "C39", "title": "DLQ move, delete and purge", "statement": "Moving a dead letter back removes it from the DLQ and makes it waiting with zero attempts, same payload and priority; delete removes exactly one; purge removes all and reports how many; all report correctly when the id is unknown.", "quantifier": "every state and id", "why_tests_cant": "states are unbounded", "anchors": ["src/brokers/queue/manager.rs move_to_queue/delete_dlq/purge_dlq", "src/brokers/queue/domain/dlq.rs"]}
{"id": "C40", "title": "Queue statistics tell the truth", "statement": "The reported pending / in-flight / DLQ counts equal the number of messages in these states and the message listing returns exactly the matching messages, page by page.", "quantifier": "every reachable state, filter, offset and limit", "why_tests_cant": "requires index consistency in every reachable state", "anchors": ["src/brokers/queue/domain/queue.rs get_counters/get_messages", "src/brokers/queue/manager.rs get_snapshot"]}
{"id": "C41", "title": "Queues are independent; create is idempotent", "statement": "An operation on one queue changes no other queue; creating an existing queue changes nothing, not even its configuration; operations on an unknown queue fail without effect.", "quantifier": "every set of queues and history", "why_tests_cant": "histories are unbounded", "anchors": ["src/brokers/queue/manager.rs"]}
{"id": "C42", "title": "Restart restores the queue", "statement": "If storage writes reach the writer in operation order, then after the last flush a restart restores exactly the same messages with payload, priority and attempt count, in the main queue and in the DLQ.", "quantifier": "every operation history", "why_tests_cant": "histories are unbounded", "anchors": ["src/brokers/queue/domain/persistence.rs exec_op/load_all_messages/load_dlq", "src/brokers/queue/manager.rs"]}
{"id": "C43", "title": "A crash loses only a suffix of operations", "statement": "After a crash at any moment the database equals the state after some prefix of the executed operations that includes every flushed one; no acknowledged-and-flushed ack is undone and no message is in both main queue and DLQ.", "quantifier": "every history, batching and crash point", "why_tests_cant": "crash points are unbounded", "anchors": ["src/brokers/queue/domain/persistence.rs run_writer/flush_batch"]}
{"id": "C44", "title": "Concurrent requests do not corrupt durable state", "statement": "Whatever the interleaving of concurrently executing requests, after everything is flushed the database agrees with memory: no acked message comes back after restart and no pushed message is missing.", "quantifier": "every interleaving of request tasks with the storage channel", "why_tests_cant": "the race window is between two statements", "anchors": ["src/brokers/queue/manager.rs push/ack/nack (execute after unlock)", "src/brokers/queue/domain/persistence.rs"]}
{"id": "C45", "title": "Recovered delivery state", "statement": "After a restart a message is in flight exactly if its persisted visibility deadline lies in the future and it had been delivered; otherwise it is waiting; it is never both, and every recovered message is eventually deliverable.", "quantifier": "every database content and restart time", "why_tests_cant": "contents are unbounded", "anchors": ["src/brokers/queue/domain/persistence.rs load_all_messages", "src/brokers/queue/manager.rs build_queue"]}
{"id": "C46", "title": "Restart preserves dispatch order", "statement": "After a restart, waiting messages of equal priority are delivered in the same relative order as without the restart.", "quantifier": "every history", "why_tests_cant": "depends on the whole history of requeues", "anchors": ["src/brokers/queue/domain/persistence.rs load_all_messages (no ORDER BY)"]}
{"id": "C47", "title": "A queue is restored under its own name", "statement": "After a restart the queue is available under exactly the name it was created with.", "quantifier": "every queue name", "why_tests_cant": "names are arbitrary strings", "anchors": ["src/brokers/queue/manager.rs new (warm start)"]}
{"id": "C48", "title": "A waiting consumer is never left asleep", "statement": "If a message becomes available while a consume is waiting (or about to wait), the consume returns it without waiting for the deadline: in no interleaving of push/nack/timeout with the consume loop is the wake-up lost.", "quantifier": "every interleaving of any number of consumers and producers", "why_tests_cant": "lost wake-ups need exact interleavings", "anchors": ["src/brokers/queue/manager.rs consume_batch/push"]}
{"id": "C49", "title": "Sequence numbers are gapless", "statement": "Each publish to a topic returns the previous sequence number plus one, starting from 1; no number is ever issued twice by a running server.", "quantifier": "every history of publishes, evictions and retention runs", "why_tests_cant": "histories are unbounded", "anchors": ["src/brokers/stream/domain/topic.rs append"]}
{"id": "C50", "title": "Reading a topic returns the exact range", "statement": "A read from sequence s with limit n returns the first n messages with sequence >= max(s, retained head) that are present in memory or storage, in order, without gaps and with the payload published under that number.", "quantifier": "every history, s and n", "why_tests_cant": "combination of eviction, retention and cold storage", "anchors": ["src/brokers/stream/domain/topic.rs read", "src/brokers/stream/manager.rs read", "src/brokers/stream/domain/persistence.rs cold_read"]}
{"id": "C51", "title": "Eviction never loses data", "statement": "Messages leave memory only if they are already written to disk (appends handed over in order) and only while more than the soft limit are held; what is evicted is a prefix.", "quantifier": "every history and limit", "why_tests_cant": "histories are unbounded", "anchors": ["src/brokers/stream/domain/topic.rs evict", "src/brokers/stream/manager.rs", "src/brokers/stream/domain/persistence.rs flush_all"]}
{"id": "C52", "title": "A message has at most one owner in a group", "statement": "Within a consumer group a message delivered to one consumer is not delivered to any consumer again until it is released by timeout, leave/disconnect, or seek.", "quantifier": "every history of group operations", "why_tests_cant": "histories are unbounded", "anchors": ["src/brokers/stream/domain/group.rs"]}
{"id": "C53", "title": "Back-pressure bound", "statement": "The number of delivered-but-unacknowledged messages of a group never exceeds max_ack_pending, and a fetch never returns more than its limit.", "quantifier": "every history", "why_tests_cant": "histories are unbounded", "anchors": ["src/brokers/stream/domain/group.rs fetch/register_cold_messages"]}
{"id": "C54", "title": "Delivery attempts are bounded", "statement": "Between two seeks a group delivers a message at most max_deliveries times; after that it is parked, stops blocking the group and is never delivered again.", "quantifier": "every history and every max_deliveries >= 1", "why_tests_cant": "histories are unbounded", "anchors": ["src/brokers/stream/domain/group.rs issue_delivery/release_seq"]}
{"id": "C55", "title": "The ack floor means 'everything up to here is settled'", "statement": "Every sequence number at or below the group's ack floor has been acknowledged, parked or removed by retention (or skipped by a seek), the floor is maximal, and it never moves backwards except by a seek.", "quantifier": "every history", "why_tests_cant": "histories are unbounded", "anchors": ["src/brokers/stream/domain/group.rs try_advance_floor/ack/clamp_head"]}
{"id": "C56", "title": "A group loses no message", "statement": "Every sequence number of the topic that is retained and above the starting point is, for each group, always exactly one of: still to be delivered, pending with one consumer, queued for redelivery, settled (acked/parked).", "quantifier": "every history", "why_tests_cant": "histories are unbounded", "anchors": ["src/brokers/stream/domain/group.rs"]}
{"id": "C57", "title": "Only the owner with the current generation can ack", "statement": "An ack succeeds exactly if the consumer is a member, uses the current generation and currently owns that message; otherwise it fails with an error and changes nothing.", "quantifier": "every state and ack", "why_tests_cant": "states are unbounded", "anchors": ["src/brokers/stream/domain/group.rs ack/ensure_active_consumer"]}
{"id": "C58", "title": "Leaving or disconnecting releases all of a consumer's messages", "statement": "When a consumer leaves or its connection is cleanly closed, all its pending messages become deliverable to others (or parked at the limit), in order, and no other consumer's messages change.", "quantifier": "every state", "why_tests_cant": "states are unbounded", "anchors": ["src/brokers/stream/domain/group.rs remove_member/release_consumer", "src/brokers/stream/manager.rs disconnect"]}
{"id": "C59", "title": "Ack timeout redelivers exactly the overdue messages", "statement": "When the redelivery task runs, exactly the pending messages older than the ack wait are released; younger ones keep their owner.", "quantifier": "every state and clock", "why_tests_cant": "states are unbounded", "anchors": ["src/brokers/stream/domain/group.rs check_redelivery"]}
{"id": "C60", "title": "Seek repositions the group and fences old members", "statement": "After a seek the group delivers from the beginning of the retained log (or only messages published later), every earlier member is refused until it joins again and old acks have no effect.", "quantifier": "every state", "why_tests_cant": "states are unbounded", "anchors": ["src/brokers/stream/domain/group.rs seek_beginning/seek_end/reset_runtime"]}
{"id": "C61", "title": "Groups and topics are independent", "statement": "An operation of one group changes neither any other group nor the topic's log.", "quantifier": "every history", "why_tests_cant": "histories are unbounded", "anchors": ["src/brokers/stream/manager.rs"]}
{"id": "C62", "title": "Log records round trip and torn tails are cut", "statement": "Reading back a segment file yields exactly the records written; if the file is cut at any byte, exactly the records written completely before the cut are recovered; a recovered record is never altered as long as CRC detects the alteration.", "quantifier": "every record list and every cut point", "why_tests_cant": "every byte position", "anchors": ["src/brokers/stream/domain/persistence.rs serialize_message/load_segment_file/read_log_segment"]}
{"id": "C63", "title": "Consumer-group file round trip", "statement": "Saving and loading the group file restores every group's id and ack floor.", "quantifier": "every set of groups", "why_tests_cant": "group names are arbitrary strings", "anchors": ["src/brokers/stream/domain/persistence.rs save_groups_file/load_groups_file"]}
{"id": "C64", "title": "Segments partition the log", "statement": "Appending through segment rotation keeps the concatenation of the segment files (in name order) equal to the sequence of appended records; each file is named after its first record and no record is split.", "quantifier": "every append history and segment size", "why_tests_cant": "histories are unbounded", "anchors": ["src/brokers/stream/domain/persistence.rs handle_append/find_segments"]}
{"id": "C65", "title": "Retention removes only old data, never the newest segment", "statement": "Size retention removes the shortest prefix of whole segments that brings the topic under the limit (never the last one); the reported head is the first remaining sequence; nothing newer is touched.", "quantifier": "every set of segment files, sizes and ages", "why_tests_cant": "sets are unbounded", "anchors": ["src/brokers/stream/domain/persistence.rs apply_retention"]}
{"id": "C66", "title": "Cold read returns the stored range", "statement": "A cold read from s with limit n returns the first n stored messages with sequence >= s, wherever segment boundaries fall.", "quantifier": "every segmentation, s and n", "why_tests_cant": "segmentations are unbounded", "anchors": ["src/brokers/stream/domain/persistence.rs cold_read/read_log_segment"]}
{"id": "C67", "title": "Restart continues the topic where it stopped", "statement": "After flushing and restarting, the topic contains the same messages, continues numbering with the next number, and each group resumes after its saved floor delivering every unsettled message again.", "quantifier": "every history", "why_tests_cant": "histories are unbounded", "anchors": ["src/brokers/stream/domain/persistence.rs recover_topic", "src/brokers/stream/manager.rs bootstrap_topics", "src/brokers/stream/domain/topic.rs restore", "src/brokers/stream/domain/group.rs restore"]}
{"id": "C68", "title": "A crash never makes a group skip messages", "statement": "After a crash at any moment, any message published after the restart is delivered to every group.", "quantifier": "every crash point", "why_tests_cant": "crash points between log flush and group save", "anchors": ["src/brokers/stream/manager.rs save groups task", "src/brokers/stream/domain/persistence.rs flush_all/save_groups_file"]}
{"id": "C69", "title": "A crash never makes numbers repeat", "statement": "After a crash at any byte of any file write and restart, no sequence number that is still readable from disk is issued again, and everything published after the restart survives the next restart.", "quantifier": "every crash point", "why_tests_cant": "byte-level crash points", "anchors": ["src/brokers/stream/domain/persistence.rs handle_append/recover_topic"]}
{"id": "C70", "title": "Concurrent publishes keep the durable log in order", "statement": "Whatever the interleaving of concurrent publishes, the log on disk is in sequence order and the persisted mark never covers an unwritten message.", "quantifier": "every interleaving of publishers", "why_tests_cant": "the race window is between two statements", "anchors": ["src/brokers/stream/manager.rs publish"]}
{"id": "C71", "title": "A waiting fetch is never left asleep", "statement": "If a message is published while a fetch is waiting (or about to wait), the fetch returns it without waiting for the deadline.", "quantifier": "every interleaving", "why_tests_cant": "lost wake-ups need exact interleavings", "anchors": ["src/brokers/stream/manager.rs fetch/publish"]}
{"id": "C72", "title": "A group can always make progress", "statement": "If a group has capacity and a retained message is still to be delivered (in memory or on disk), some fetch by a member returns messages.", "quantifier": "every reachable state", "why_tests_cant": "needs combinations of cold reads, aborted requests and holes", "anchors": ["src/brokers/stream/manager.rs try_fetch_once/cold_fetch", "src/brokers/stream/domain/group.rs register_cold_messages"]}
{"id": "C73", "title": "A closed connection always releases its consumers", "statement": "Whenever a client connection ends, for whatever reason, its stream memberships and pub/sub subscriptions are released.", "quantifier": "every way a connection can end", "why_tests_cant": "depends on error paths", "anchors": ["src/transport/tcp/connection.rs handle_connection"]}
{"id": "C74", "title": "A deleted topic or queue stays deleted", "statement": "After delete returns, a restart does not bring the topic or queue or any of its messages back, and a queue or topic created afterwards is not damaged by the deletion.", "quantifier": "every interleaving with publishes and creates", "why_tests_cant": "race windows", "anchors": ["src/brokers/stream/manager.rs delete_topic", "src/brokers/stream/domain/persistence.rs handle_append (recreates directory)", "src/brokers/queue/manager.rs delete_queue"]}
{"id": "C75", "title": "Client-side concurrency limit", "statement": "The SDK processes each message of a batch exactly once with at most the configured number of handlers running at a time.", "quantifier": "every batch, concurrency limit and completion order", "why_tests_cant": "completion orders are unbounded", "anchors": ["sdk/ts/src/utils/concurrent.ts runConcurrent"]}
{"id": "C76", "title": "Every queue request is answered as the reference queue would", "statement": "For every history, each push, pop, batch consume, ack, nack, timeout pass and DLQ request gets exactly the answer of a reference queue made of three plain lists (waiting in arrival order, in flight by deadline, dead in order of death).", "quantifier": "every history of requests with fresh message ids", "why_tests_cant": "histories are unbounded", "anchors": ["src/brokers/queue/domain/queue.rs", "src/brokers/queue/domain/dlq.rs", "src/brokers/queue/manager.rs"]}
{"id": "C77", "title": "Retry limit across restarts", "statement": "A message is never delivered more than max_retries times (at least once), counting deliveries before and after restarts.", "quantifier": "every history with crashes and restarts", "why_tests_cant": "needs a crash between the last delivery and its timeout", "anchors": ["src/brokers/queue/domain/queue.rs", "src/brokers/queue/domain/persistence.rs load"]}
{"id": "C78", "title": "A crash falls back to an earlier set of retained messages", "statement": "After a crash at any moment, also in the middle of saving, and a restart, subscribers see the retained messages as they were at some earlier moment, after which at most one save completed; never a mixture.", "quantifier": "every history of requests, save steps, crashes and restarts", "why_tests_cant": "crash points are unbounded", "anchors": ["src/brokers/pub-sub/manager.rs new (flush task)", "src/brokers/pub-sub/domain/persistence.rs flush/load"]}
{"id": "C79", "title": "A retained publish with an unrepresentable TTL changes nothing", "statement": "A publish is left unanswered exactly when it is retained, non-empty and its TTL exceeds what the clock can represent; it then delivers and retains nothing, and the broker goes on working.", "quantifier": "every history, TTL and clock reading", "why_tests_cant": "TTLs and histories are unbounded", "anchors": ["src/brokers/pub-sub/manager.rs publish", "src/brokers/pub-sub/domain/retained.rs RetainedMessage::new"]}
{"id": "C80", "title": "An acknowledgement stands for a handler that succeeded", "statement": "The SDK sends an ack only for a message whose handler has succeeded and a nack only for one whose handler threw or that was passed over after stop, at most one per delivery; while the connection is up and sending does not throw, every finished queue message gets its ack or nack.", "quantifier": "every batch, concurrency, completion order, stop and connection loss", "why_tests_cant": "completion orders are unbounded", "anchors": ["sdk/ts/src/brokers/queue.ts subscribe", "sdk/ts/src/brokers/stream.ts pollOnce", "sdk/ts/src/utils/concurrent.ts"]}
{"id": "C81", "title": "Segment files stay within the size limit and are filled up", "statement": "No log file of a topic grows beyond max_segment_size unless it holds a single record, and a new file is begun only when the next record no longer fits.", "quantifier": "every history of publishes, flushes, retention runs, restarts and crashes", "why_tests_cant": "histories and record sizes are unbounded", "anchors": ["src/brokers/stream/domain/persistence.rs handle_append"]}
{"id": "C82", "title": "Pushed messages reach a connection in order, each once", "statement": "Messages the broker pushes to a connection reach its client in the order they were handed over, each exactly once and none skipped; while the connection is open none is lost, whatever requests are in flight.", "quantifier": "every interleaving of pushes, requests, responses and writes, every channel size >= 1, every cut of the byte stream into chunks", "why_tests_cant": "interleavings are unbounded", "anchors": ["src/transport/tcp/connection.rs handle_connection push bridge/run_socket", "sdk/ts/src/connection.ts handleFrame"]}
{"id": "C83", "title": "Store requests over a connection are linearizable", "statement": "With any number of requests in flight on a connection, and other clients and the sweeper at work, the store requests behave as if each took effect at one moment between its arrival and its response: the responses and the store are those of one sequential history. A client that waits for the response of its SET reads back what it wrote. Requests sent without waiting may take effect in any order.", "quantifier": "every interleaving of the requests of a connection with other clients, the sweeper and the clock", "why_tests_cant": "interleavings are unbounded", "anchors": ["src/transport/tcp/connection.rs handle_connection", "src/transport/tcp/dispatcher.rs dispatch", "src/brokers/store/tcp.rs handle", "src/brokers/store/domain/map.rs"]}
{"id": "C84", "title": "Every SDK request is settled once, by its own response", "statement": "Each request promise of the SDK is settled at most once, and truthfully: with the response frame that carries its own id, received on the connection it was sent on; with a timeout only after its due time and without a response; as closed only when the connection was lost. It is settled as soon as one of these happens, so no request stays open past the first check after its due time.", "quantifier": "every interleaving of requests, acks, received chunks, timeout checks, losses, reconnects and disconnect()", "why_tests_cant": "interleavings and responses (late, unknown, reordered) are unbounded", "anchors": ["sdk/ts/src/connection.ts send/sendFireAndForget/handleFrame/startSweep/setupListeners"]}
{"id": "C85", "title": "disconnect() of the SDK client is final", "statement": "After disconnect() the client neither connects, writes, nor delivers anything again.", "quantifier": "every history before and after", "why_tests_cant": "reconnect timing cannot be enumerated", "anchors": ["sdk/ts/src/connection.ts disconnect/startReconnectLoop"]}
{"id": "C86", "title": "The SDK application hears exactly what the server wrote", "statement": "While a connection is up, the responses and pushes the SDK hands on are those the server wrote, in order, with their ids, status, data, topics and values, however the bytes are cut into chunks and whatever requests are sent meanwhile; no message makes the receiving callback throw.", "quantifier": "every sequence of server frames, every chunking, every interleaving of client calls", "why_tests_cant": "inputs and chunkings are unbounded", "anchors": ["sdk/ts/src/connection.ts processBuffer/handleFrame", "sdk/ts/src/codec.ts Cursor.decodeAny", "src/transport/tcp/protocol/codec.rs encode"]}
{"id": "C87", "title": "The SDK client reconnects after every loss", "statement": "Until disconnect() is called, the client is connected or trying: after any number of losses and failed attempts it connects at the end of the next delay if the server can be reached, and tells the brokers so that subscriptions are restored.", "quantifier": "every history of losses, failed attempts and requests", "why_tests_cant": "histories of failures are unbounded", "anchors": ["sdk/ts/src/connection.ts setupListeners/startReconnectLoop"]}
{"id": "C88", "title": "A confirmed SDK subscription stays and comes back", "statement": "From the moment subscribe(topic) resolves until an unsubscribe of it, every message the client receives on a matching topic runs the handler exactly once; after every reconnect the client subscribes again, and once the broker has executed that request a publish to a matching topic is delivered to it exactly once. A second subscribe of the topic is rejected.", "quantifier": "every history of calls, responses, timeouts, losses, reconnects and other clients", "why_tests_cant": "reconnects interleave with open calls in unboundedly many ways", "anchors": ["sdk/ts/src/brokers/pubsub.ts subscribe/restoreSubscriptions/dispatch", "sdk/ts/src/connection.ts request", "src/brokers/pub-sub/manager.rs subscribe/publish"]}
{"id": "C89", "title": "A confirmed SDK unsubscription is final", "statement": "After unsubscribe(topic) resolves, and until a new subscribe of it, its handler never runs again and the broker holds no such subscription for the client, on this and every later connection.", "quantifier": "every history of calls, responses, timeouts, losses and reconnects", "why_tests_cant": "reconnects interleave with open calls in unboundedly many ways", "anchors": ["sdk/ts/src/brokers/pubsub.ts unsubscribe/restoreSubscriptions/dispatch", "src/brokers/pub-sub/manager.rs unsubscribe"]}
{"id": "C90", "title": "An SDK stream subscription keeps receiving", "statement": "Until stop() is called, a stream subscription fetches under the identity the server last gave it and acknowledges only what its callback has handled under that identity; after any failure it joins again and goes on; while its connection and the server are up, the server accepts its identity, so that messages available to it reach the callback.", "quantifier": "every history of answers, errors, timeouts, losses, reconnects, restarts, seeks, callbacks and other clients", "why_tests_cant": "failures interleave with callbacks and requests in unboundedly many ways", "anchors": ["sdk/ts/src/brokers/stream.ts StreamSubscription", "sdk/ts/src/utils/concurrent.ts", "src/brokers/stream/manager.rs fetch/join_group/disconnect", "src/brokers/stream/domain/group.rs ensure_active"]}
{"id": "C91", "title": "Stopping an SDK stream subscription", "statement": "After stop() is called no callback starts; when it returns all callbacks have ended and nothing is sent or run any more, and the consumer has left its group; stop() can always return.", "quantifier": "every history before, during and after stop()", "why_tests_cant": "stop() can meet any state of the loop", "anchors": ["sdk/ts/src/brokers/stream.ts stop/runLoop", "src/brokers/stream/manager.rs leave_group"]}
{"id": "C92", "title": "A queue subscription of the SDK goes on until stopped, and stop() ends it", "statement": "Until stop() is called a queue subscription always comes to its next CONSUME, whatever failed before; after stop() no callback starts, messages that still arrive are handed back, stop() returns when the callbacks under way have ended, nothing happens for the subscription afterwards, and the queue handle can be subscribed again.", "quantifier": "every history of subscribe and stop calls, answers, failures, losses and callbacks, every concurrency", "why_tests_cant": "failures and stop() interleave with callbacks in unboundedly many ways", "anchors": ["sdk/ts/src/brokers/queue.ts subscribe", "sdk/ts/src/utils/concurrent.ts"]}
{"id": "C93", "title": "A queue handle of the SDK has one subscription at a time", "statement": "A second subscribe() on a queue handle is refused as long as the first subscription has not been stopped, so one loop consumes for the handle and the concurrency option bounds the callbacks that run.", "quantifier": "every interleaving of subscribe and stop calls with their requests", "why_tests_cant": "interleavings of calls are unbounded", "anchors": ["sdk/ts/src/brokers/queue.ts subscribe isSubscribed"]}
{"id": "C94", "title": "No pushed message is lost between queue and callback", "statement": "With any number of SDK consumers, each message that was pushed is at every moment in the queue (waiting, in flight or dead-lettered), or a callback was run with exactly its data and ended without throwing, or someone else removed it by an ack or by deleting or purging dead letters. Callbacks get only pushed messages. A message is dead-lettered only after its callback was run and failed, or a delivery timed out.", "quantifier": "every history of pushes, consumers, callbacks, stops, timeouts, and of lost, late or reordered requests and answers", "why_tests_cant": "combines unbounded client and server histories with message loss", "anchors": ["sdk/ts/src/brokers/queue.ts subscribe/consume", "src/brokers/queue/domain/queue.rs", "src/brokers/queue/manager.rs consume/ack/nack"]}
{"id": "C95", "title": "A message handled in time is handled once", "statement": "As long as no delivery exceeds its visibility timeout and nobody but the consumers nacks, no two callbacks run for one message at the same time, over all clients, at most one of them ends well, and after it no callback is started for the message again.", "quantifier": "every history of pushes, consumers, callbacks, failures, stops and lost requests", "why_tests_cant": "histories and the number of clients are unbounded", "anchors": ["sdk/ts/src/brokers/queue.ts subscribe", "src/brokers/queue/domain/queue.rs take_batch/nack/delete_message"]}
{"id": "C96", "title": "A stream group passes over no record", "statement": "With any number of SDK subscriptions of any groups, lost and reordered requests and answers, ends of connections and restarts of the server: when a group is told that it has got as far as f, then for each record up to f a callback of one of its subscriptions was run with exactly that record and ended well, or someone else acknowledged it, or it had been given out as often as allowed, a seek to the end skipped it, or retention removed it. Otherwise the server still has it to deliver. Callbacks get only published records, and a record is given up only after its callback has been run.", "quantifier": "every history of publishes, subscriptions, callbacks, failures, stops, losses, seeks, retention runs and restarts", "why_tests_cant": "needs client, server and network histories together, without bound", "anchors": ["sdk/ts/src/brokers/stream.ts StreamSubscription", "src/brokers/stream/manager.rs", "src/brokers/stream/domain/group.rs"]}
{"id": "C97", "title": "A stream record is handled again only after it was taken back", "statement": "For each record, the callbacks of a group, over all its subscriptions, are started at most max_deliveries times between two seeks or restarts, and at most once more than the record was taken back: by its consumer leaving, by the end of its connection, by a late acknowledgement, by a seek or a restart. After an accepted acknowledgement it is not given out again until the next seek or restart. If all goes well it is handled once.", "quantifier": "every history of publishes, subscriptions, callbacks, failures, stops, losses, seeks and restarts", "why_tests_cant": "histories and schedules are unbounded", "anchors": ["sdk/ts/src/brokers/stream.ts StreamSubscription", "src/brokers/stream/domain/group.rs fetch/register_cold_messages/remove_member/check_redelivery"]}
{"id": "C98", "title": "The pub/sub page of the dashboard shows what is there", "statement": "GET /api/pubsub lists exactly the patterns and topics with a subscriber or a retained message whose name contains the search text, one row each under its name, in the order of the names, cut to the wanted page; the row gives the number of subscribed clients and the retained message unless it has expired, and the total counts all rows. The page gives the number of connected clients and lists each wildcard subscription once, under # or +.", "quantifier": "every history of connections, subscriptions, publishes, clean-ups and disconnects, every search text and page", "why_tests_cant": "histories and topic trees are unbounded", "anchors": ["src/brokers/pub-sub/manager.rs scan_topics", "src/brokers/pub-sub/radix_tree.rs", "src/brokers/pub-sub/http.rs", "src/brokers/pub-sub/snapshot.rs"]}
{"id": "C99", "title": "The stream pages of the dashboard show what is there", "statement": "GET /api/stream gives for each topic the number of its newest record and lists each group once, with the number of records given out and not acknowledged and the floor up to which all is settled. GET /api/stream/{topic}/messages without `from` lists the newest records that retention has left, newest first, as many as the limit (50, at most 500); with `from` those from that number on. The page shows only published records, without gaps.", "quantifier": "every history of publishes, consumers, evictions, flushes, retention runs and restarts, every from and limit, and whatever happens while the page is made", "why_tests_cant": "eviction, retention, disk and restarts combine without bound", "anchors": ["src/brokers/stream/http.rs", "src/brokers/stream/manager.rs get_snapshot/read", "src/brokers/stream/snapshot.rs"]}
{"id": "C100", "title": "Values pass between SDK clients unchanged", "statement": "A Buffer, string or JSON value that a client sends (store value, queue message, stream record, published message) is read by every client as a value of the same kind and with the same content. Strings are written as valid UTF-8. Different values have different bytes.", "quantifier": "every Buffer, every JavaScript string, every value that JSON.stringify and JSON.parse carry over", "why_tests_cant": "strings and buffers are unbounded and the encoding has many cases", "anchors": ["sdk/ts/src/codec.ts any/decodeAny/string", "src/transport/tcp/protocol/cursor.rs read_string"]}
{"id": "C101", "title": "The dashboard shows payloads as what they are", "statement": "A payload sent by the SDK is shown on the dashboard as its text if it was a string, as 0x and its bytes in hexadecimal if it was a Buffer, and as the value itself if it was JSON; a payload without a type byte as JSON if it is that, else as text. Different payloads are shown differently.", "quantifier": "every payload of any client", "why_tests_cant": "payloads are unbounded", "anchors": ["src/transport/http/payload.rs payload_to_json_value", "sdk/ts/src/codec.ts any"]}
{"id": "C102", "title": "Options given in the SDK are the settings the server uses", "statement": "Each option of store.set, queue.create, queue.push, queue subscribe, pubsub.publish and stream.create that is a whole number (or boolean) in range takes effect as given; one that is left out, undefined or null takes the server's default (for a subscription the SDK's: 50 messages, 20 seconds). An option of the wrong kind, negative, fractional or too large is refused with an error and nothing is executed; an option that the command does not know is refused, too.", "quantifier": "every options object of any application, every configuration of the server", "why_tests_cant": "option objects and number texts are unbounded", "anchors": ["src/brokers/queue/options.rs", "src/brokers/stream/options.rs", "src/brokers/pub-sub/options.rs", "src/brokers/store/tcp.rs MapSetOptions", "src/brokers/queue/manager.rs consume_batch", "src/brokers/stream/domain/topic.rs TopicConfig::from_options", "src/brokers/store/domain/map.rs set", "sdk/ts/src/brokers/queue.ts subscribe"]}
{"id": "C103", "title": "Queues and streams keep the settings they were created with", "statement": "The visibility timeout and retries of a queue and the retention and limits of a stream are after any restart what they were when it was created, whatever the server's defaults are by then and whatever options it is created with again; also after a crash while it is created; and a stream whose data directory was moved is read from where it is written to.", "quantifier": "every settings value, every configuration before and after the restart", "why_tests_cant": "settings range over 64-bit numbers and paths; a crash can cut the file anywhere", "anchors": ["src/brokers/queue/manager.rs new, create_queue", "src/brokers/stream/manager.rs load_topic_config, build_topic_shared, create_topic"]}
{"id": "C104", "title": "Environment variables set what they say", "statement": "A variable that holds a number in range is the setting; one that is not set leaves the default; one that holds anything else stops the server with an error.", "quantifier": "every text of every variable", "why_tests_cant": "texts are unbounded", "anchors": ["src/config.rs get_env", "src/brokers/queue/config.rs get_env", "src/brokers/stream/config.rs get_env", "src/brokers/pub-sub/config.rs get_env", "src/brokers/store/config.rs get_env"]}
{"id": "C105", "title": "What one application stores, every application reads", "statement": "After store.map.set(key, value, {ttl}) has resolved, a get of the key by the same or any other SDK client, while no one else writes the key, resolves to the value (Buffers and text as they were, other values as JSON keeps them) as long as the lifetime is not over, to null when it is over; after del it resolves to null; sets and deletes of other keys do not matter.", "quantifier": "every key, value, ttl, number of clients and requests in flight, schedule of the connection's tasks, sweeper and clock", "why_tests_cant": "keys, values and schedules are unbounded; the value passes the SDK's codec, the options parser, the connection's tasks and the shared map", "anchors": ["sdk/ts/src/brokers/store.ts mapSet mapGet mapDel", "sdk/ts/src/codec.ts any decodeAny", "src/brokers/store/tcp.rs handle", "src/brokers/store/domain/map.rs set get del"]}
{"id": "C106", "title": "What one application publishes, the handlers of subscribers get", "statement": "A value published with the SDK goes once to each client with a matching subscription, and the handlers there are called with the topic and the value (Buffers and text as they were, other values as JSON keeps them); a subscription that has resolved and is not being ended has its handler called once; with retain: true the value is what later subscribers get until its lifetime is over, a later retained publish to the topic replaces it, and publishing an empty payload with retain: true clears it.", "quantifier": "every value, topic, option object, history of the broker and of the subscriber's connection", "why_tests_cant": "values, topics, patterns and histories are unbounded; the value passes the SDK's codec, the options parser, the broker and the other SDK's dispatch", "anchors": ["sdk/ts/src/brokers/pubsub.ts publish, subscribe", "sdk/ts/src/connection.ts handlePush", "sdk/ts/src/codec.ts any decodeAny", "src/brokers/pub-sub/tcp.rs handle", "src/brokers/pub-sub/manager.rs publish subscribe", "docs/guide/pubsub.md"]}
{"id": "C107", "title": "What applications push is what the consumers' callbacks get", "statement": "A value pushed to a queue with the SDK, with any options, is, once the push was executed, in the queue with its priority, or a callback got the value (Buffers and text as they were, other values as JSON keeps them) and ended well, or someone else removed it. When all messages come from SDKs, callbacks get only values that were pushed, no batch is dropped because one of its messages cannot be read, and peekDLQ shows the values that were pushed.", "quantifier": "every value and options object, any number of clients and subscriptions, every order, loss and delay of requests and answers, every timeout", "why_tests_cant": "values, options and schedules are unbounded; the value passes two codecs, the options parser and the queue", "anchors": ["sdk/ts/src/brokers/queue.ts push, consume, peekDLQ, subscribe", "sdk/ts/src/codec.ts any decodeAny", "src/brokers/queue/tcp.rs handle", "src/brokers/queue/manager.rs push consume_batch"]}
{"id": "C108", "title": "What applications publish to a stream is what the groups' callbacks get", "statement": "When a group is told that it has got as far as record n, then for each value published up to there with the SDK a callback of the group got the value (Buffers and text as they were, other values as JSON keeps them) and ended well, or someone else acknowledged it, it was given out as often as allowed, a seek to the end skipped it or retention removed it. When all records come from SDKs, callbacks get only values that were published and no batch is dropped because one of its records cannot be read.", "quantifier": "every value, any number of subscriptions and groups, every order, loss and delay of requests and answers, restarts", "why_tests_cant": "values and schedules are unbounded; the value passes two codecs, the log and its recovery", "anchors": ["sdk/ts/src/brokers/stream.ts publish, pollOnce", "sdk/ts/src/codec.ts any decodeAny", "src/brokers/stream/tcp.rs handle", "src/brokers/stream/manager.rs publish fetch"]}
{"id": "C109", "title": "The queue page of the dashboard finds what is searched for", "statement": "The page of a queue for pending or in-flight messages lists exactly the messages in that state that the search finds, each once, with id, value, state, priority and attempts; the total is their number, and pages laid end to end are all of them. A search finds a message exactly if what the page shows of its value contains the text; this holds for dead letters as well.", "quantifier": "every history of a queue, search text, page size and offset, pushed value", "why_tests_cant": "histories, values and search texts are unbounded", "anchors": ["src/brokers/queue/http.rs get_queue_messages", "src/brokers/queue/domain/queue.rs get_messages", "src/brokers/queue/manager.rs get_messages peek_dlq", "src/transport/http/payload.rs"]}
{"id": "C110", "title": "A message on disk reaches a callback whatever crashes", "statement": "Once a pushed message is in the queue's database file, then at every later moment, however often the server crashes and restarts and whatever requests and answers are lost, the message is listed by the queue (waiting, in flight or dead-lettered), or a consumer's callback was run with its data and ended well, or someone else removed it. Of all pushed messages only those can be missing that were in memory only when the server crashed; none, if everything was written before each crash. Callbacks get only what was pushed. A message that is gone, with this written and no answer carrying it under way, never comes back to a consumer.", "quantifier": "every interleaving of any number of SDK consumers, other requests, losses, the storage writer, and crashes with restarts", "why_tests_cant": "crash points, interleavings of writer and consumers, and the number of restarts are unbounded", "anchors": ["src/brokers/queue/domain/persistence.rs", "src/brokers/queue/manager.rs warm start", "src/brokers/queue/domain/queue.rs", "sdk/ts/src/brokers/queue.ts subscribe", "sdk/ts/src/utils/concurrent.ts"]}
{"id": "C111", "title": "The store page of the dashboard shows what is stored", "statement": "For every history of SETs, DELs and sweeps, the pages of GET /api/store laid end to end show each key once: exactly the keys whose newest SET was not followed by a DEL and has not expired and whose name contains the searched text, each with the value of that SET and the time of day at which it expires. A page has at most the rows asked for (500 if nothing is said). A key is found by exactly the texts that are a part of its name, whatever characters they have. The total is the number of keys shown by all pages, and a key that is there all the time is on one of the pages even if the sweeper runs between the requests.", "quantifier": "every history, order of the map, clock readings, page size, search and number of pages", "why_tests_cant": "histories, page sizes, texts and the moment of a sweep between two requests are unbounded", "anchors": ["src/brokers/store/http.rs get_store", "src/brokers/store/manager.rs scan", "src/brokers/store/domain/map.rs", "src/transport/http/payload.rs"]}
{"id": "C112", "title": "A queue or stream has the settings of its creation for all its life", "statement": "Through any sequence of creations, deletions, stops, starts with other defaults, and crashes of the server, also in the middle of a creation or deletion: a creation or deletion has happened wholly or not at all, an answered one has happened, and as long as the queue or stream is there it has the settings of the creation that made it (what the options said, otherwise the defaults of the server of that time). Creating it again changes nothing.", "quantifier": "every history of creations, deletions, stops, starts and crashes, every option, every default, every byte at which a write breaks off", "why_tests_cant": "the histories, and the points at which a creation or deletion is cut, are unbounded", "anchors": ["src/brokers/queue/manager.rs create_queue, delete_queue, warm start", "src/brokers/stream/manager.rs create_topic, delete_topic, load_topic_config, bootstrap_from_disk", "src/brokers/stream/domain/persistence.rs DropTopic"]}
{"id": "C113", "title": "Failing consumers do not keep a queue busy for ever; a worker that acks empties it", "statement": "While the server runs, whatever consumers do (ack, nack, disappear, time out), the number of deliveries of a queue is at most max(1, maxRetries) for each push and each dead-letter move; at any moment the deliveries still to come without new pushes and moves are at most what the attempts shown by the listings leave. While something waits, a request for at least one message delivers one. A worker alone on the queue that asks for up to b messages and acks all it got, repeatedly, leaves nothing waiting once rounds times b reaches the number waiting, having been given each waiting message exactly once, highest priority first and in order of arrival within a priority, and leaves other consumers' messages and the dead letters alone. Several workers, their requests and acks interleaved in any way, are together given exactly the first messages of that same order, as many as they asked for, no message to two of them, and the rest keeps its order.", "quantifier": "every history of requests and timeouts, every continuation, every batch size, number of rounds and clock", "why_tests_cant": "histories and queues are unbounded; a loop of redeliveries shows only after arbitrarily many steps", "anchors": ["src/brokers/queue/domain/queue.rs push/pop/take_batch/ack/nack/process_expired", "src/brokers/queue/manager.rs consume_batch/nack/move_to_queue"]}
